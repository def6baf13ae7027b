(** Standard errors of a whole analysis: residuals, variances and estimates of the run. *)
From Coq Require Import Lia Lra Permutation.
From Coquelicot Require Import Complex.
From Verif Require Import M_Base M_Bunch M_Lib M_Tables M_Const M_Options M_Time M_Slvinit M_Harmonics M_Select M_Ellipse
  M_Robust M_Period M_Conf M_Diag M_Solve M_Recon S_Dict S_Options S_Order S_Basis S_Select S_Fit S_Ellipse S_Slv S_Recon S_Model S_Errors
  L_Base L_Options L_SolveInv L_OptSolve L_Slv L_Slv2 L_Order L_Select L_Fit L_Align L_SelOrder L_Basis L_Angle L_Ellipse L_Recon L_Recon2 L_Recon3 L_Core
  L_Ellipse2 L_Model L_Lsq L_Model2 L_Model3 L_Model4 L_Model5 L_Model6 L_Model7 L_Model8 L_Model9 L_Gauss L_Errors L_Errors2 L_Errors3.
Open Scope R_scope.
Open Scope string_scope.

Definition unit_vec (N a : nat) (z : C) : list C := map (fun a' => Cmult (kd a a') z) (seq 0 N).

Lemma unit_dot row N a z : length row = N -> (a < N)%nat -> cdot row (unit_vec N a z) = Cmult (nth a row (RtoC 0)) z.
Proof.
  intros Hr Ha. rewrite (cdot_Sm _ _ N) by (unfold unit_vec; rewrite ?map_length, ?seq_length; auto).
  transitivity (Sm N (fun a' => Cmult (kd a a') (Cmult (nth a' row (RtoC 0)) z))).
  - apply Sm_ext. intros a' Ha'. unfold unit_vec. rewrite nth_map_seq by auto. apply C_eq; cbn; ring.
  - now rewrite Sm_kd.
Qed.

Lemma rsum_Sm {A} (f : A -> R) l d : RtoC (rsum (map f l)) = Sm (length l) (fun k => RtoC (f (nth k l d))).
Proof. rewrite Sm_ofR. do 2 f_equal. symmetry. apply (map_nth_seq f). reflexivity. Qed.

Lemma rsum_opp_map {A} (f : A -> R) l : rsum (map (fun x => - f x) l) = - rsum (map f l).
Proof. induction l as [|x l IH]; [unfold rsum; cbn; ring|]. cbn [map]. rewrite !rsum_cons, IH. ring. Qed.

Lemma fst_Sm n f : fst (Sm n f) = rsum (map (fun s => fst (f s)) (seq 0 n)).
Proof. now rewrite rsum_parts. Qed.

Section Run.
Variables (L : lib) (t : pyarr tarray) (u : pyarr (list xr)) (v : option (pyarr (list xr))) (lat : option R) (opts : dict pyval) (c : coef).
Variables (si : slv) (la : R) (s : sel) (B : list (list C)) (xraw m : list C) (W : list xr).
Hypothesis BH : behind L t u v lat opts c si la s B xraw m W.
Hypothesis HS : sorted_order (opt_value opts "order_constit").
Hypothesis NI : o_infer (c_opt c) = None.

Notation tw := (o_twodim (c_opt c)).
Notation good := (good_row (si_tref si) (si_lor si) la (c_opt c) s).
Notation nc := (length (s_lind s)).
Notation rr := (1 + if o_notrend (c_opt c) then 0 else 1)%nat.
Variable sm : list (R * C).
Hypothesis S1 : si_t si = map fst sm.
Hypothesis S2 : xraw = map snd sm.
Hypothesis S3 : tw = false -> forall x, In x sm -> snd (snd x) = 0.
Notation n := (length sm).
Notation N := (nc + nc + rr)%nat.
Notation b := (bf B).
Notation tm k := (fst (nth k sm (0, RtoC 0))).
Notation xd k := (snd (nth k sm (0, RtoC 0))).
Notation li a := (nth a (s_lind s) 0%nat).
Notation mm a := (nth a m (RtoC 0)).
Notation fitted k := (Sm N (fun a => Cmult (b k a) (mm a))).

Hypothesis LM : lstsq_minimises L.
Hypothesis OLS : o_method (c_opt c) = PStr "ols".

Lemma run_cdot k : (k < n)%nat -> cdot (nth k B []) m = fitted k.
Proof. intros. eapply row_m; eauto. Qed.

Lemma ortho a : (a < N)%nat -> Sm n (fun k => Cmult (Cconj (b k a)) (Cminus (xd k) (fitted k))) = RtoC 0.
Proof.
  intros Ha.
  assert (G : forall z, fst (Sm n (fun k => Cmult (Cconj (Cmult (b k a) z)) (Cminus (xd k) (fitted k)))) = 0).
  { intros z. assert (I := run_ip _ _ _ _ _ _ _ _ _ _ _ _ _ _ BH LM OLS sm S1 S2 (unit_vec N a z)).
    rewrite (proj1 (proj2 (proj2 (proj2 (proj2 (run_counts _ _ _ _ _ _ _ _ _ _ _ _ _ _ BH HS NI)))))) in I.
    specialize (I ltac:(unfold unit_vec; now rewrite map_length, seq_length)).
    rewrite fst_Sm. apply (f_equal RtoC) in I. rewrite (rsum_Sm _ _ ((0, RtoC 0), [])) in I.
    rewrite combine_length, (B_len _ _ _ _ _ _ _ _ _ _ _ _ _ _ BH sm S1), Nat.min_id, Sm_ofR in I. apply R_of_C in I.
    match type of I with ?l = _ => transitivity (- l); [|rewrite I; ring] end. rewrite <- rsum_opp_map. f_equal. apply map_ext_in. intros k Hk. apply in_seq in Hk.
    rewrite combine_nth by (symmetry; eapply B_len; eauto). cbn [fst snd]. rewrite run_cdot by lia.
    rewrite (unit_dot _ N) by (auto; eapply row_len; eauto; lia). change (nth a (nth k B []) (RtoC 0)) with (b k a).
    generalize (fitted k) (b k a) (nth k sm (0, RtoC 0)). intros F bb x. unfold Cminus, Cplus, Copp, Cmult, Cconj. cbn [fst snd]. ring. }
  assert (G1 := G (RtoC 1)). assert (G2 := G (0, 1)).
  set (Z := Sm n _). assert (E1 : fst Z = 0).
  { rewrite <- G1. unfold Z. f_equal. apply Sm_ext. intros. rewrite Cconj_mult, Cconj_R. apply C_eq; cbn; ring. }
  assert (E2 : snd Z = 0).
  { rewrite <- G2. transitivity (fst (Cmult (0, -1) Z)); [cbn; ring|]. unfold Z. rewrite <- Sm_l. f_equal. apply Sm_ext. intros.
    rewrite Cconj_mult. apply C_eq; cbn; ring. }
  apply C_eq; cbn; auto.
Qed.

Variables (iC iP : cmat).
Hypothesis HX : inv_of N (fun a a' => Sm n (fun k => Cmult (Cconj (b k a)) (b k a'))) (cent iC).
Hypothesis HY : inv_of N (fun a a' => Sm n (fun k => Cmult (b k a) (b k a'))) (cent iP).

Lemma cols_distinct : NoDup (s_lind s).
Proof.
  apply (NoDup_nth _ 0%nat). intros i j Hi Hj E. destruct (Nat.eq_dec i j) as [|D]; auto. exfalso.
  destruct (HX i i ltac:(lia) ltac:(lia)) as [H1 _]. destruct (HX j i ltac:(lia) ltac:(lia)) as [H2 _].
  assert (K : kd i i = kd j i).
  { rewrite <- H1, <- H2. apply Sm_ext. intros a Ha. f_equal. apply Sm_ext. intros k Hk. f_equal. f_equal.
    rewrite !(b_wave _ _ _ _ _ _ _ _ _ _ _ _ _ _ BH HS NI sm S1) by auto. now rewrite E. }
  unfold kd in K. rewrite Nat.eqb_refl in K. destruct (Nat.eqb_spec j i); [congruence|]. injection K. lra.
Qed.

Lemma run_bconj k a : (k < n)%nat -> (a < N)%nat -> Cconj (b k a) = b k (swapP nc a).
Proof. intros. eapply b_conj; eauto. Qed.

Lemma in_sm k : (k < n)%nat -> In (nth k sm (0, RtoC 0)) sm.
Proof. intros. now apply nth_In. Qed.

Lemma fitted_real k : tw = false -> (k < n)%nat -> snd (fitted k) = 0.
Proof.
  intros T Hk. set (tau := fun a => Sm n (fun k => Cmult (Cconj (b k a)) (xd k))).
  assert (TC : forall a, (a < N)%nat -> Cconj (tau (swapP nc a)) = tau a).
  { intros a Ha. unfold tau. rewrite Sm_conj. apply Sm_ext. intros j Hj. rewrite Cconj_mult, Cconj_conj.
    rewrite <- run_bconj by auto. f_equal. assert (Z := S3 T _ (in_sm j Hj)). destruct (xd j) as [x y]. cbn in *. rewrite Z. apply C_eq; cbn; ring. }
  assert (E : forall a, (a < N)%nat -> yv N (cent iC) tau a = mm a).
  { unfold yv. apply (solve_with N _ _ (fun a => mm a) tau HX). intros a Ha. unfold tau.
    assert (O := ortho a Ha). transitivity (Sm n (fun j => Cmult (Cconj (b j a)) (fitted j))).
    - transitivity (Sm n (fun j => Sm N (fun a' => Cmult (Cmult (Cconj (b j a)) (b j a')) (mm a')))).
      + rewrite Sm_swap. apply Sm_ext. intros a' _. now rewrite Sm_r.
      + apply Sm_ext. intros j _. rewrite <- Sm_l. apply Sm_ext. intros. apply C_eq; cbn; ring.
    - transitivity (Cplus (Sm n (fun j => Cmult (Cconj (b j a)) (fitted j))) (Sm n (fun k => Cmult (Cconj (b k a)) (Cminus (xd k) (fitted k))))).
      + rewrite O. apply C_eq; cbn; ring.
      + rewrite <- Sm_plus. apply Sm_ext. intros. apply C_eq; cbn; ring. }
  assert (P := phi_real n N b (swapP nc) (swapP_lt nc rr) run_bconj (swapP_sum nc rr) (cent iC) HX tau TC k Hk).
  unfold phi in P. rewrite (Sm_ext N _ (fun a => Cmult (b k a) (mm a))) in P by (intros a Ha; now rewrite E).
  apply (f_equal snd) in P. cbn [Cconj snd] in P. lra.
Qed.

Lemma vis_fitted k : (k < n)%nat -> vis1 tw (fitted k) = fitted k.
Proof.
  intros Hk. assert (Z0 := fun T => fitted_real k T Hk). unfold vis1. clear - Z0. destruct tw; [reflexivity|]. assert (Z := Z0 eq_refl). destruct (fitted k). cbn in *. now rewrite Z.
Qed.

Notation rs := (rs c B m sm).
Lemma rs_len : length rs = n.
Proof. unfold L_Model9.rs. rewrite map_length, combine_length, (B_len _ _ _ _ _ _ _ _ _ _ _ _ _ _ BH sm S1). lia. Qed.
Lemma rs_nth k : (k < n)%nat -> nth k rs (RtoC 0) = Cminus (xd k) (fitted k).
Proof.
  intros Hk. unfold L_Model9.rs.
  rewrite (nth_indep _ _ ((fun p : R * C * list C => Cminus (snd (fst p)) (vis1 tw (cdot (snd p) m))) ((0, RtoC 0), []))).
  2: { rewrite map_length, combine_length, (B_len _ _ _ _ _ _ _ _ _ _ _ _ _ _ BH sm S1). lia. }
  rewrite (map_nth (fun p : R * C * list C => Cminus (snd (fst p)) (vis1 tw (cdot (snd p) m)))). rewrite combine_nth by (symmetry; eapply B_len; eauto). cbn [fst snd]. rewrite run_cdot, vis_fitted by auto. reflexivity.
Qed.

(** sums of squares of the residuals *)
Notation Su := (rsum (map (fun r => fst r ^ 2) rs)).
Notation Sv := (rsum (map (fun r => snd r ^ 2) rs)).

Lemma sum_sq : rsum (map (fun r => fst r ^ 2 + snd r ^ 2) rs) = Su + Sv.
Proof. induction rs as [|r l IH]; [unfold rsum; cbn; ring|]. cbn [map]. rewrite !rsum_cons, IH. ring. Qed.

Lemma pseudo : Cminus (wdot xraw xraw (map (fun _ => 1) sm)) (wdot (model_fit tw B m) xraw (map (fun _ => 1) sm)) =
  Sm n (fun k => Cmult (nth k rs (RtoC 0)) (nth k rs (RtoC 0))).
Proof.
  assert (Lx : length xraw = n) by now rewrite S2, map_length.
  assert (Lm : length (model_fit tw B m) = n).
  { unfold model_fit, cmatvec. destruct tw; rewrite ?map_length; eapply B_len; eauto. }
  rewrite !wdot_Sm by congruence. rewrite Lm, Lx.
  assert (Ex : forall k, nth k xraw (RtoC 0) = xd k) by (intros k; rewrite S2; apply (map_nth snd sm (0, RtoC 0))).
  assert (Em : forall k, (k < n)%nat -> nth k (model_fit tw B m) (RtoC 0) = fitted k).
  { intros k Hk. rewrite <- vis_fitted, <- run_cdot by auto. unfold model_fit, cmatvec, vis1. assert (BL := B_len _ _ _ _ _ _ _ _ _ _ _ _ _ _ BH sm S1).
    destruct tw.
    - rewrite (nth_indep _ _ (cdot [] m)) by (rewrite map_length; lia). now rewrite (map_nth (fun row => cdot row m)).
    - rewrite map_map. rewrite (nth_indep _ _ (RtoC (fst (cdot [] m)))) by (rewrite map_length; lia).
      now rewrite (map_nth (fun row => RtoC (fst (cdot row m)))). }
  rewrite <- Sm_minus.
  transitivity (Cplus (Sm n (fun k => Cmult (nth k rs (RtoC 0)) (nth k rs (RtoC 0)))) (Sm n (fun k => Cmult (Cminus (xd k) (fitted k)) (fitted k)))).
  - rewrite <- Sm_plus. apply Sm_ext. intros k Hk. rewrite Ex, Em, rs_nth by auto. apply C_eq; cbn; ring.
  - transitivity (Cplus (Sm n (fun k => Cmult (nth k rs (RtoC 0)) (nth k rs (RtoC 0)))) (RtoC 0)); [f_equal|apply C_eq; cbn; ring].
    transitivity (Sm n (fun k => Sm N (fun a => Cmult (mm a) (Cmult (Cconj (b k (swapP nc a))) (Cminus (xd k) (fitted k)))))).
    + apply Sm_ext. intros k Hk. rewrite <- Sm_l. apply Sm_ext. intros a Ha. rewrite <- run_bconj, Cconj_conj by auto. apply C_eq; cbn; ring.
    + rewrite Sm_swap. apply Sm_0. intros a Ha. rewrite Sm_l, ortho by now apply swapP_lt. apply C_eq; cbn; ring.
Qed.
Lemma pseudo_re : fst (Sm n (fun k => Cmult (nth k rs (RtoC 0)) (nth k rs (RtoC 0)))) = Su - Sv.
Proof.
  rewrite <- rs_len. rewrite <- (csum_Sm (fun z => Cmult z z)). rewrite csum_parts. cbn [fst].
  induction rs as [|r l IH]; [unfold rsum; cbn; ring|]. cbn [map]. rewrite !rsum_cons, IH. cbn [Cmult fst]. ring.
Qed.

Lemma pseudo_im : snd (Sm n (fun k => Cmult (nth k rs (RtoC 0)) (nth k rs (RtoC 0)))) = 2 * rsum (map (fun r => fst r * snd r) rs).
Proof.
  rewrite <- rs_len. rewrite <- (csum_Sm (fun z => Cmult z z)). rewrite csum_parts. cbn [snd].
  induction rs as [|r l IH]; [unfold rsum; cbn; ring|]. cbn [map]. rewrite !rsum_cons, IH. cbn [Cmult snd]. ring.
Qed.

(** *** one constituent *)
Variable c0 : nat.
Hypothesis Hc0 : (c0 < nc)%nat.
Definition wgt (cosine : bool) : list R := map (fun k => fst (phi N b (cent iC) (tauC s cosine c0) k)) (seq 0 n).

Lemma wgt_len cosine : length (wgt cosine) = n. Proof. unfold wgt. now rewrite map_length, seq_length. Qed.
Lemma wgt_nth cosine k : (k < n)%nat -> RtoC (nth k (wgt cosine) 0) = phi N b (cent iC) (tauC s cosine c0) k.
Proof.
  intros Hk. unfold wgt. rewrite nth_map_seq by auto. symmetry.
  destruct (one_real n nc rr c0 b Hc0 run_bconj (cent iC) HX k Hk) as [E1 E2]. destruct cosine; [exact E1|exact E2].
Qed.
Lemma tau_conj cosine a : (a < N)%nat -> Cconj (tauC s cosine c0 (swapP nc a)) = tauC s cosine c0 a.
Proof. intros _. unfold tauC. destruct cosine; [now apply tauX_conj|now apply tauY_conj]. Qed.

Lemma wgt_best cosine : best_unbiased c sm (li c0) cosine (wgt cosine).
Proof.
  assert (ND := cols_distinct).
  split.
  - apply (picked_iff _ _ _ _ _ _ _ _ _ _ _ _ _ _ BH HS NI sm S1 S2 S3 ND cosine c0 _ Hc0). split; [apply wgt_len|]. intros a Ha.
    rewrite <- (dual n N b (cent iC) HX (tauC s cosine c0) a Ha). apply Sm_ext. intros k Hk. now rewrite wgt_nth.
  - intros w' U. apply (picked_iff _ _ _ _ _ _ _ _ _ _ _ _ _ _ BH HS NI sm S1 S2 S3 ND cosine c0 _ Hc0) in U. destruct U as [Hw U].
    assert (E := phi_least n N b (swapP nc) (swapP_lt nc rr) run_bconj (swapP_sum nc rr) (cent iC) HX (tauC s cosine c0) (tau_conj cosine) (fun k => nth k w' 0) U).
    assert (Q : RtoC (squares w') = Cplus (RtoC (squares (wgt cosine))) (RtoC (rsum (map (fun k => (nth k w' 0 - nth k (wgt cosine) 0) ^ 2) (seq 0 n))))).
    { rewrite !squares_Sm, wgt_len, Hw, E. f_equal.
      - apply Sm_ext. intros k Hk. now rewrite wgt_nth.
      - rewrite <- Sm_ofR. apply Sm_ext. intros k Hk. rewrite <- wgt_nth by auto. apply C_eq; cbn; ring. }
    apply (f_equal fst) in Q. cbn [Cplus RtoC fst] in Q. rewrite Q.
    assert (0 <= rsum (map (fun k => (nth k w' 0 - nth k (wgt cosine) 0) ^ 2) (seq 0 n))); [|lra].
    generalize (seq 0 n). intros l. induction l as [|x l IH]; [unfold rsum; cbn; lra|]. cbn [map]. rewrite rsum_cons.
    assert (0 <= (nth x w' 0 - nth x (wgt cosine) 0) ^ 2) by apply pow2_ge_0. lra.
Qed.

Lemma wgt_estimate cosine : (estimate fst (wgt cosine) sm, estimate snd (wgt cosine) sm) =
  if cosine then Cplus (mm c0) (mm (c0 + nc)%nat) else Cmult (0, 1) (Cminus (mm c0) (mm (c0 + nc)%nat)).
Proof.
  transitivity (Sm n (fun k => Cmult (phi N b (cent iC) (tauC s cosine c0) k) (xd k))).
  - transitivity (Cplus (RtoC (estimate fst (wgt cosine) sm)) (Cmult (0, 1) (RtoC (estimate snd (wgt cosine) sm)))); [apply C_eq; cbn; ring|].
    rewrite !estimate_Sm by apply wgt_len. rewrite <- Sm_l, <- Sm_plus. apply Sm_ext. intros k Hk. rewrite <- wgt_nth by auto. apply C_eq; cbn; ring.
  - rewrite (phi_data n N b (swapP nc) (swapP_lt nc rr) run_bconj (swapP_sum nc rr) (cent iC) HX (tauC s cosine c0) (tau_conj cosine) (fun k => xd k) (fun a => mm a) ortho).
    unfold tauC. destruct cosine; [now rewrite sum_tauX_c by lia|now rewrite sum_tauY_c by lia].
Qed.

Lemma run_vars vv f gC gP : gC = map (map (fun z => Cmult z (RtoC vv))) iC -> gP = map (map (fun z => Cmult z f)) iP ->
  varXu (block true (gC, gP) nc c0) (block true (gC, gP) nc c0) = squares (wgt true) * ((vv + fst f) / 2) /\
  varYu (block false (gC, gP) nc c0) (block false (gC, gP) nc c0) = squares (wgt false) * ((vv + fst f) / 2) /\
  varXv (block false (gC, gP) nc c0) (block false (gC, gP) nc c0) = squares (wgt true) * ((vv - fst f) / 2) /\
  varYv (block true (gC, gP) nc c0) (block true (gC, gP) nc c0) = squares (wgt false) * ((vv - fst f) / 2).
Proof.
  intros -> ->. destruct (one_sumX n nc rr c0 b Hc0 run_bconj (cent iC) (cent iP) HX HY) as (sx & X1 & X2 & X3).
  destruct (one_sumY n nc rr c0 b Hc0 run_bconj (cent iC) (cent iP) HX HY) as (sy & Y1 & Y2 & Y3).
  destruct (one_sym n nc rr c0 b Hc0 (cent iC) (cent iP) HX HY) as [Z1 Z2].
  assert (EX : squares (wgt true) = sx).
  { apply R_of_C. rewrite squares_Sm, wgt_len, <- X1. apply Sm_ext. intros k Hk. now rewrite wgt_nth. }
  assert (EY : squares (wgt false) = sy).
  { apply R_of_C. rewrite squares_Sm, wgt_len, <- Y1. apply Sm_ext. intros k Hk. now rewrite wgt_nth. }
  rewrite EX, EY. eapply block_variances; try apply cent_scaled; eauto.
Qed.

Lemma products_Sm w1 w2 : length w2 = length w1 -> RtoC (products w1 w2) = Sm (length w1) (fun k => Cmult (RtoC (nth k w1 0)) (RtoC (nth k w2 0))).
Proof.
  intros E. unfold products. rewrite (rsum_Sm _ _ (0, 0)). rewrite combine_length, E, Nat.min_id. apply Sm_ext. intros k Hk.
  rewrite combine_nth by auto. cbn [fst snd]. apply C_eq; cbn; ring.
Qed.

Lemma run_covs vv f gC gP : gC = map (map (fun z => Cmult z (RtoC vv))) iC -> gP = map (map (fun z => Cmult z f)) iP ->
  let x := squares (wgt true) in let y := squares (wgt false) in let z := products (wgt true) (wgt false) in
  covXuYu (block false (gC, gP) nc c0) = z * ((vv + fst f) / 2) /\
  covXvYv (block true (gC, gP) nc c0) = z * ((vv - fst f) / 2) /\
  covXuXv (block false (gC, gP) nc c0) = x * (snd f / 2) /\
  covXuYv (block true (gC, gP) nc c0) = z * (snd f / 2) /\
  covYuXv (block false (gC, gP) nc c0) = z * (snd f / 2) /\
  covYuYv (block true (gC, gP) nc c0) = y * (snd f / 2).
Proof.
  intros -> ->. cbv zeta. destruct (one_sumX n nc rr c0 b Hc0 run_bconj (cent iC) (cent iP) HX HY) as (sx & X1 & X2 & X3).
  destruct (one_sumY n nc rr c0 b Hc0 run_bconj (cent iC) (cent iP) HX HY) as (sy & Y1 & Y2 & Y3).
  destruct (one_cross n nc rr c0 b Hc0 run_bconj (cent iC) HX) as (sxy & W1 & W2).
  destruct (one_sym n nc rr c0 b Hc0 (cent iC) (cent iP) HX HY) as [Z1 Z2].
  assert (Z3 := one_diag n nc rr c0 b Hc0 (cent iC) HX).
  destruct (one_columns n nc rr c0 b Hc0 run_bconj (cent iC) (cent iP) HX HY c0 ltac:(lia)) as [C1 C2].
  destruct (one_columns n nc rr c0 b Hc0 run_bconj (cent iC) (cent iP) HX HY (c0 + nc)%nat ltac:(lia)) as [C3 C4].
  assert (EX : squares (wgt true) = sx).
  { apply R_of_C. rewrite squares_Sm, wgt_len, <- X1. apply Sm_ext. intros k Hk. now rewrite wgt_nth. }
  assert (EY : squares (wgt false) = sy).
  { apply R_of_C. rewrite squares_Sm, wgt_len, <- Y1. apply Sm_ext. intros k Hk. now rewrite wgt_nth. }
  assert (EZ : products (wgt true) (wgt false) = sxy).
  { apply R_of_C. rewrite products_Sm by (now rewrite !wgt_len). rewrite wgt_len, <- W1. apply Sm_ext. intros k Hk. now rewrite !wgt_nth. }
  rewrite EX, EY, EZ.
  assert (C5 : cent iC (c0 + nc) (c0 + nc) = cent iC c0 c0) by congruence.
  eapply block_covariances; try apply cent_scaled; eauto; congruence.
Qed.
End Run.
