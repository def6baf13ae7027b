(** Intervals of an analysis with sample weights: covariances and the noise measure of the run. *)
From Coq Require Import Lia Lra Permutation.
From Coquelicot Require Import Complex.
From Verif Require Import M_Base M_Bunch M_Lib M_Tables M_Const M_Options M_Time M_Slvinit M_Harmonics M_Select M_Ellipse
  M_Robust M_Period M_Conf M_Diag M_Solve M_Recon S_Dict S_Options S_Order S_Basis S_Select S_Fit S_Ellipse S_Slv S_Recon S_Model S_Errors S_RobustErr
  L_Base L_Options L_SolveInv L_OptSolve L_Slv L_Slv2 L_Order L_Select L_Fit L_Align L_SelOrder L_Basis L_Angle L_Ellipse L_Recon L_Recon2 L_Recon3 L_Core
  L_Ellipse2 L_Model L_Lsq L_Model2 L_Model3 L_Model4 L_Model5 L_Model6 L_Model7 L_Model8 L_Model9 L_Gauss L_Errors L_Errors2 L_Errors3 L_Errors4 L_Robust2.
Open Scope R_scope.
Open Scope string_scope.

(** ** sums with weights *)
Lemma gram_entry_w B B' (w : list R) N a b : length B = length B' -> length w = length B -> (a < N)%nat -> (b < N)%nat ->
  cent (gram B B' w N) a b = Sm (length B) (fun s => Cmult (RtoC (nth s w 0)) (Cmult (bf B s a) (bf B' s b))).
Proof.
  intros H1 H2 Ha Hb. unfold cent, gram. rewrite nth_map_seq by auto. rewrite nth_map_seq by auto.
  rewrite (csum_Sm _ _ ([], [], 0)). rewrite !combine_length. rewrite <- H1, H2, !Nat.min_id.
  apply Sm_ext. intros s Hs. rewrite !combine_nth' by (rewrite ?combine_length; lia). cbn [fst snd].
  unfold bf. apply C_eq; cbn; ring.
Qed.
Lemma wdot_Sm_w a b (w : list R) : length a = length b -> length w = length a ->
  wdot a b w = Sm (length a) (fun s => Cmult (RtoC (nth s w 0)) (Cmult (nth s a (RtoC 0)) (nth s b (RtoC 0)))).
Proof.
  intros H1 H2. unfold wdot. rewrite (csum_Sm _ _ (RtoC 0, RtoC 0, 0)). rewrite !combine_length, <- H1, H2, !Nat.min_id.
  apply Sm_ext. intros s Hs. rewrite !combine_nth' by (rewrite ?combine_length; lia). cbn [fst snd]. apply C_eq; cbn; ring.
Qed.
Definition wq (a x y : R) : R := if Req_EM_T a 0 then 0 else x * y / a.
Lemma wproducts_Sm w o1 o2 : length o1 = length w -> length o2 = length w ->
  RtoC (weighted_products w o1 o2) = Sm (length w) (fun k => RtoC (wq (nth k w 0) (nth k o1 0) (nth k o2 0))).
Proof.
  intros E1 E2. unfold weighted_products. rewrite (rsum_Sm _ _ (0, (0, 0))). rewrite !combine_length, E1, E2, !Nat.min_id. apply Sm_ext. intros k Hk.
  rewrite !combine_nth' by (rewrite ?combine_length; lia). reflexivity.
Qed.
Lemma wq_sqrt a x y : 0 <= a -> wq a (sqrt a * x) (sqrt a * y) = if Req_EM_T a 0 then 0 else x * y.
Proof.
  intros Ha. unfold wq. destruct (Req_EM_T a 0) as [|N]; [reflexivity|].
  replace (sqrt a * x * (sqrt a * y)) with (sqrt a * sqrt a * (x * y)) by ring. rewrite sqrt_sqrt by auto. field. exact N.
Qed.

Section Run.
Variables (L : lib) (t : pyarr tarray) (u : pyarr (list xr)) (v : option (pyarr (list xr))) (lat : option R) (opts : dict pyval) (c : coef).
Variables (si : slv) (la : R) (s : sel) (B : list (list C)) (xraw m : list C) (W : list xr).
Hypothesis BH : behind L t u v lat opts c si la s B xraw m W.
Hypothesis HS : sorted_order (opt_value opts "order_constit").
Hypothesis NI : o_infer (c_opt c) = None.

Notation tw := (o_twodim (c_opt c)).
Notation nc := (length (s_lind s)).
Notation rr := (1 + if o_notrend (c_opt c) then 0 else 1)%nat.
Variable sm : list (R * C).
Hypothesis S1 : si_t si = map fst sm.
Hypothesis S2 : xraw = map snd sm.
Hypothesis S3 : tw = false -> forall x, In x sm -> snd (snd x) = 0.
Notation n := (length sm).
Notation N := (nc + nc + rr)%nat.
Notation b := (bf B).
Notation xd k := (snd (nth k sm (0, RtoC 0))).
Notation li a := (nth a (s_lind s) 0%nat).
Variable w : list R.
Hypothesis Hw : length w = n.
Hypothesis Hw0 : Forall (fun a => 0 <= a) w.
Notation wk k := (nth k w 0).
Definition bw (k a : nat) : C := Cmult (RtoC (sqrt (wk k))) (b k a).

Lemma wk_0 k : 0 <= wk k.
Proof.
  destruct (Nat.lt_ge_cases k (length w)) as [H|H].
  - exact (proj1 (Forall_forall _ _) Hw0 _ (nth_In w 0 H)).
  - rewrite nth_overflow by exact H. lra.
Qed.
Lemma wk_ss k : sqrt (wk k) * sqrt (wk k) = wk k. Proof. apply sqrt_sqrt, wk_0. Qed.

Lemma bw_conj k a : (k < n)%nat -> (a < N)%nat -> Cconj (bw k a) = bw k (swapP nc a).
Proof.
  intros Hk Ha. unfold bw. rewrite Cconj_mult, Cconj_R. f_equal. eapply b_conj; eauto.
Qed.

Variables (iC iP : cmat).
Hypothesis HX : inv_of N (fun a a' => Sm n (fun k => Cmult (Cconj (bw k a)) (bw k a'))) (cent iC).
Hypothesis HY : inv_of N (fun a a' => Sm n (fun k => Cmult (bw k a) (bw k a'))) (cent iP).

Lemma wcols_distinct : NoDup (s_lind s).
Proof.
  apply (NoDup_nth _ 0%nat). intros i j Hi Hj E. destruct (Nat.eq_dec i j) as [|D]; auto. exfalso.
  destruct (HX i i ltac:(lia) ltac:(lia)) as [H1 _]. destruct (HX j i ltac:(lia) ltac:(lia)) as [H2 _].
  assert (K : kd i i = kd j i).
  { rewrite <- H1, <- H2. apply Sm_ext. intros a Ha. f_equal. apply Sm_ext. intros k Hk. f_equal. f_equal. unfold bw. f_equal.
    rewrite !(b_wave _ _ _ _ _ _ _ _ _ _ _ _ _ _ BH HS NI sm S1) by auto. now rewrite E. }
  unfold kd in K. rewrite Nat.eqb_refl in K. destruct (Nat.eqb_spec j i); [congruence|]. injection K. lra.
Qed.

(** *** one constituent *)
Variable c0 : nat.
Hypothesis Hc0 : (c0 < nc)%nat.
Notation ph cosine k := (phi N bw (cent iC) (tauC s cosine c0) k).
Definition om (cosine : bool) : list R := map (fun k => sqrt (wk k) * fst (ph cosine k)) (seq 0 n).

Lemma om_len cosine : length (om cosine) = n. Proof. unfold om. now rewrite map_length, seq_length. Qed.
Lemma om_nth cosine k : (k < n)%nat -> nth k (om cosine) 0 = sqrt (wk k) * fst (ph cosine k).
Proof. intros Hk. unfold om. now rewrite nth_map_seq by auto. Qed.
Lemma ph_real cosine k : (k < n)%nat -> ph cosine k = RtoC (fst (ph cosine k)).
Proof.
  intros Hk. destruct (one_real n nc rr c0 bw Hc0 bw_conj (cent iC) HX k Hk) as [E1 E2]. destruct cosine; [exact E1|exact E2].
Qed.
Lemma ph_0 cosine k : wk k = 0 -> fst (ph cosine k) = 0.
Proof.
  intros Z. unfold phi. rewrite Sm_0; [reflexivity|]. intros a _. unfold bw. rewrite Z, sqrt_0. apply C_eq; cbn; ring.
Qed.
Lemma wtau_conj cosine a : (a < N)%nat -> Cconj (tauC s cosine c0 (swapP nc a)) = tauC s cosine c0 a.
Proof. intros _. unfold tauC. destruct cosine; [now apply tauX_conj|now apply tauY_conj]. Qed.

Lemma om_products c1 c2 : RtoC (weighted_products w (om c1) (om c2)) = Sm n (fun k => Cmult (ph c1 k) (ph c2 k)).
Proof.
  rewrite wproducts_Sm by now rewrite om_len. rewrite Hw. apply Sm_ext. intros k Hk. rewrite !om_nth by auto.
  rewrite wq_sqrt by apply wk_0. rewrite (ph_real c1), (ph_real c2) by auto.
  destruct (Req_EM_T (wk k) 0) as [Z|_]; [rewrite !ph_0 by exact Z|]; apply C_eq; cbn; ring.
Qed.

Lemma om_best cosine : best_weighted c sm w (li c0) cosine (om cosine).
Proof.
  assert (ND := wcols_distinct).
  split; [|split].
  - apply (picked_iff _ _ _ _ _ _ _ _ _ _ _ _ _ _ BH HS NI sm S1 S2 S3 ND cosine c0 _ Hc0). split; [apply om_len|]. intros a Ha.
    rewrite <- (dual n N bw (cent iC) HX (tauC s cosine c0) a Ha). apply Sm_ext. intros k Hk. rewrite om_nth, (ph_real cosine k) by auto.
    unfold bw. rewrite Cconj_mult, Cconj_R. apply C_eq; cbn; ring.
  - intros k Z. destruct (Nat.lt_ge_cases k n) as [H|H]; [|apply nth_overflow; now rewrite om_len]. rewrite om_nth by auto. rewrite Z, sqrt_0. ring.
  - intros o' U LO. apply (picked_iff _ _ _ _ _ _ _ _ _ _ _ _ _ _ BH HS NI sm S1 S2 S3 ND cosine c0 _ Hc0) in U. destruct U as [Ho U].
    set (psi := fun k => nth k o' 0 / sqrt (wk k)).
    assert (PS : forall k, (k < n)%nat -> sqrt (wk k) * psi k = nth k o' 0).
    { intros k Hk. unfold psi. destruct (Req_dec (wk k) 0) as [Z|NZ]; [rewrite (LO k Z), Z, sqrt_0; unfold Rdiv; ring|].
      field. intros E. apply sqrt_eq_0 in E; [contradiction|apply wk_0]. }
    assert (U' : forall a, (a < N)%nat -> Sm n (fun k => Cmult (Cconj (bw k a)) (RtoC (psi k))) = tauC s cosine c0 a).
    { intros a Ha. rewrite <- (U a Ha). apply Sm_ext. intros k Hk. rewrite <- (PS k Hk). unfold bw. rewrite Cconj_mult, Cconj_R. apply C_eq; cbn; ring. }
    assert (E := phi_least n N bw (swapP nc) (swapP_lt nc rr) bw_conj (swapP_sum nc rr) (cent iC) HX (tauC s cosine c0) (wtau_conj cosine) psi U').
    assert (Q : RtoC (weighted_squares w o') = Sm n (fun k => RtoC (if Req_EM_T (wk k) 0 then 0 else psi k * psi k))).
    { unfold weighted_squares. rewrite wproducts_Sm by congruence. rewrite Hw. apply Sm_ext. intros k Hk. rewrite <- (PS k Hk). now rewrite wq_sqrt by apply wk_0. }
    assert (Z0 : forall k, wk k = 0 -> psi k = 0) by (intros k Z; unfold psi; rewrite (LO k Z); unfold Rdiv; ring).
    assert (Q' : RtoC (weighted_squares w o') = Cplus (RtoC (weighted_squares w (om cosine))) (RtoC (rsum (map (fun k => (psi k - fst (ph cosine k)) ^ 2) (seq 0 n))))).
    { rewrite Q. unfold weighted_squares. rewrite om_products. transitivity (Sm n (fun k => Cmult (RtoC (psi k)) (RtoC (psi k)))).
      - apply Sm_ext. intros k Hk. destruct (Req_EM_T (wk k) 0) as [Z|_]; [rewrite (Z0 k Z)|]; apply C_eq; cbn; ring.
      - rewrite E. f_equal. rewrite <- Sm_ofR. apply Sm_ext. intros k Hk. rewrite (ph_real cosine k) by auto. apply C_eq; cbn; ring. }
    apply (f_equal fst) in Q'. cbn [Cplus RtoC fst] in Q'. rewrite Q'.
    assert (0 <= rsum (map (fun k => (psi k - fst (ph cosine k)) ^ 2) (seq 0 n))); [|lra].
    generalize (seq 0 n). intros l. induction l as [|x l IH]; [unfold rsum; cbn; lra|]. cbn [map]. rewrite rsum_cons.
    assert (0 <= (psi x - fst (ph cosine x)) ^ 2) by apply pow2_ge_0. lra.
Qed.

Lemma wrun_vars vv f gC gP : gC = map (map (fun z => Cmult z (RtoC vv))) iC -> gP = map (map (fun z => Cmult z f)) iP ->
  varXu (block true (gC, gP) nc c0) (block true (gC, gP) nc c0) = weighted_squares w (om true) * ((vv + fst f) / 2) /\
  varYu (block false (gC, gP) nc c0) (block false (gC, gP) nc c0) = weighted_squares w (om false) * ((vv + fst f) / 2) /\
  varXv (block false (gC, gP) nc c0) (block false (gC, gP) nc c0) = weighted_squares w (om true) * ((vv - fst f) / 2) /\
  varYv (block true (gC, gP) nc c0) (block true (gC, gP) nc c0) = weighted_squares w (om false) * ((vv - fst f) / 2).
Proof.
  intros -> ->. destruct (one_sumX n nc rr c0 bw Hc0 bw_conj (cent iC) (cent iP) HX HY) as (sx & X1 & X2 & X3).
  destruct (one_sumY n nc rr c0 bw Hc0 bw_conj (cent iC) (cent iP) HX HY) as (sy & Y1 & Y2 & Y3).
  destruct (one_sym n nc rr c0 bw Hc0 (cent iC) (cent iP) HX HY) as [Z1 Z2].
  assert (EX : weighted_squares w (om true) = sx) by (apply R_of_C; unfold weighted_squares; rewrite om_products, <- X1; reflexivity).
  assert (EY : weighted_squares w (om false) = sy) by (apply R_of_C; unfold weighted_squares; rewrite om_products, <- Y1; reflexivity).
  rewrite EX, EY. eapply block_variances; try apply cent_scaled; eauto.
Qed.

Lemma wrun_covs vv f gC gP : gC = map (map (fun z => Cmult z (RtoC vv))) iC -> gP = map (map (fun z => Cmult z f)) iP ->
  let x := weighted_squares w (om true) in let y := weighted_squares w (om false) in let z := weighted_products w (om true) (om false) in
  covXuYu (block false (gC, gP) nc c0) = z * ((vv + fst f) / 2) /\
  covXvYv (block true (gC, gP) nc c0) = z * ((vv - fst f) / 2) /\
  covXuXv (block false (gC, gP) nc c0) = x * (snd f / 2) /\
  covXuYv (block true (gC, gP) nc c0) = z * (snd f / 2) /\
  covYuXv (block false (gC, gP) nc c0) = z * (snd f / 2) /\
  covYuYv (block true (gC, gP) nc c0) = y * (snd f / 2).
Proof.
  intros -> ->. cbv zeta. destruct (one_sumX n nc rr c0 bw Hc0 bw_conj (cent iC) (cent iP) HX HY) as (sx & X1 & X2 & X3).
  destruct (one_sumY n nc rr c0 bw Hc0 bw_conj (cent iC) (cent iP) HX HY) as (sy & Y1 & Y2 & Y3).
  destruct (one_cross n nc rr c0 bw Hc0 bw_conj (cent iC) HX) as (sxy & W1 & W2).
  destruct (one_sym n nc rr c0 bw Hc0 (cent iC) (cent iP) HX HY) as [Z1 Z2].
  assert (Z3 := one_diag n nc rr c0 bw Hc0 (cent iC) HX).
  destruct (one_columns n nc rr c0 bw Hc0 bw_conj (cent iC) (cent iP) HX HY c0 ltac:(lia)) as [C1 C2].
  destruct (one_columns n nc rr c0 bw Hc0 bw_conj (cent iC) (cent iP) HX HY (c0 + nc)%nat ltac:(lia)) as [C3 C4].
  assert (EX : weighted_squares w (om true) = sx) by (apply R_of_C; unfold weighted_squares; rewrite om_products, <- X1; reflexivity).
  assert (EY : weighted_squares w (om false) = sy) by (apply R_of_C; unfold weighted_squares; rewrite om_products, <- Y1; reflexivity).
  assert (EZ : weighted_products w (om true) (om false) = sxy) by (apply R_of_C; rewrite om_products, <- W1; reflexivity).
  rewrite EX, EY, EZ.
  assert (C5 : cent iC (c0 + nc) (c0 + nc) = cent iC c0 c0) by congruence.
  eapply block_covariances; try apply cent_scaled; eauto; congruence.
Qed.
End Run.

(** *** the measure of the noise *)
Section Noise.
Variables (tw : bool) (B : cmat) (m : list C) (sm : list (R * C)) (w : list R).
Hypothesis HB : length sm = length B.
Hypothesis Hw : length w = length sm.
Notation rs := (map (fun p : R * C * list C => Cminus (snd (fst p)) (vis1 tw (cdot (snd p) m))) (combine sm B)).
Notation fitm := (model_fit tw B m).
Notation xs := (map snd sm).

Lemma fit_map : fitm = map (fun row => vis1 tw (cdot row m)) B.
Proof. unfold model_fit, cmatvec, vis1. destruct tw; [reflexivity|now rewrite map_map]. Qed.

Lemma wdot_cons x y a b z w0 : wdot (x :: a) (y :: b) (z :: w0) = Cplus (Cmult (Cmult x (RtoC z)) y) (wdot a b w0).
Proof. unfold wdot. cbn [combine map fst snd]. now rewrite csum_cons'. Qed.

Lemma noise_c : fst (Cminus (wdot (map Cconj xs) xs w) (wdot (map Cconj fitm) xs w)) =
  rsum (map (fun p => fst p * (fst (snd (fst (snd p))) * fst (snd (snd p)) + snd (snd (fst (snd p))) * snd (snd (snd p)))) (combine w (combine sm rs))).
Proof.
  rewrite fit_map. revert B w HB Hw. clear. induction sm as [|[x z] l IH]; intros [|row B] [|a w] HB Hw; try discriminate.
  { unfold wdot, rsum. cbn. ring. }
  cbn [map combine fst snd]. rewrite !wdot_cons, rsum_cons. cbn [fst snd]. rewrite <- IH by (cbn in *; lia).
  generalize (wdot (map Cconj (map snd l)) (map snd l) w) (wdot (map Cconj (map (fun r => vis1 tw (cdot r m)) B)) (map snd l) w) (vis1 tw (cdot row m)).
  intros p q z'. unfold Cminus, Cplus, Copp, Cmult, Cconj, RtoC. cbn [fst snd]. ring.
Qed.
Lemma noise_p : let f := Cminus (wdot xs xs w) (wdot fitm xs w) in
  fst f = rsum (map (fun p => fst p * (fst (snd (fst (snd p))) * fst (snd (snd p)) - snd (snd (fst (snd p))) * snd (snd (snd p)))) (combine w (combine sm rs))) /\
  snd f = rsum (map (fun p => fst p * (fst (snd (fst (snd p))) * snd (snd (snd p)) + snd (snd (fst (snd p))) * fst (snd (snd p)))) (combine w (combine sm rs))).
Proof.
  cbv zeta. rewrite fit_map. revert B w HB Hw. clear. induction sm as [|[x z] l IH]; intros [|row B] [|a w] HB Hw; try discriminate.
  { unfold wdot, rsum. cbn. split; ring. }
  cbn [map combine fst snd]. rewrite !wdot_cons, !rsum_cons. cbn [fst snd].
  destruct (IH B w ltac:(cbn in *; lia) ltac:(cbn in *; lia)) as [<- <-].
  generalize (wdot (map snd l) (map snd l) w) (wdot (map (fun r => vis1 tw (cdot r m)) B) (map snd l) w) (vis1 tw (cdot row m)).
  intros p q z'. unfold Cminus, Cplus, Copp, Cmult, Cconj, RtoC. cbn [fst snd]. split; ring.
Qed.
Lemma resid_w : resid_parts tw (map Fin w) xs fitm =
  let wr := map (fun p => Cmult (RtoC (fst p)) (snd p)) (combine w rs) in Some (map fst wr, oif tw (map snd wr)).
Proof.
  unfold resid_parts. replace (all_finite (map Fin w)) with (Some w).
  2: { symmetry. clear. now apply all_finite_spec. }
  cbv zeta. f_equal. f_equal.
  - f_equal. f_equal. f_equal. rewrite fit_map. revert B HB. clear. induction sm as [|x l IH]; intros [|row B] HB; try discriminate; [reflexivity|].
    cbn [map combine fst snd]. f_equal. apply IH. now injection HB.
  - do 4 f_equal. rewrite fit_map. revert B HB. clear. induction sm as [|x l IH]; intros [|row B] HB; try discriminate; [reflexivity|].
    cbn [map combine fst snd]. f_equal. apply IH. now injection HB.
Qed.
End Noise.
