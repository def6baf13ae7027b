(** A robust analysis whose intervals depend on the vertical datum: M2 from seven samples. *)
From Coq Require Import QArith Qreals Lia Lra Permutation Sorted.
From Coquelicot Require Import Coquelicot.
From Verif Require Import M_Base M_Lib M_Tables M_Const M_Options M_Time M_Slvinit M_Harmonics M_Select M_Ellipse
  M_Robust M_Period M_Conf M_Diag M_Solve M_Recon S_Dict S_Options S_Slv S_Order S_Basis S_Select S_Fit S_Ellipse S_Recon S_Model S_Errors S_Robust
  L_Base L_Options L_SolveInv L_OptSolve L_Slv L_Slv2 L_Tables L_Order L_Select L_Fit L_Align L_SelOrder L_Order2 L_Order3 L_Example L_Angle L_Core
  L_Ellipse L_Ellipse2 L_Robust L_Robust2 L_Robust3 L_Example3 L_Example4 L_Example5 L_Example7.
Open Scope R_scope.
Open Scope string_scope.

(** ** three different rows *)
Section Rows.
Variables (x y : R).
Hypothesis Hx : x <> 1.
Hypothesis Hy : y <> 0.
Definition rw (a b : R) : list C := [(a, b); (a, - b); RtoC 1].
Definition B7 : cmat := [rw x (- y); rw x (- y); rw x (- y); rw 1 0; rw 1 0; rw x y; rw x y].
(** columns of the inverse of the matrix of the three rows *)
Definition iv (g : nat) : list C :=
  match g with
  | 0%nat => [(- (1 / (4 * (1 - x))), 1 / (4 * y)); (- (1 / (4 * (1 - x))), - (1 / (4 * y))); RtoC (1 / (2 * (1 - x)))]
  | 1%nat => [RtoC (1 / (2 * (1 - x))); RtoC (1 / (2 * (1 - x))); RtoC (1 - 1 / (1 - x))]
  | _ => [(- (1 / (4 * (1 - x))), - (1 / (4 * y))); (- (1 / (4 * (1 - x))), 1 / (4 * y)); RtoC (1 / (2 * (1 - x)))]
  end.
Definition gm7 : list (nat * R) := [(0%nat, 1 / 3); (0%nat, 1 / 3); (0%nat, 1 / 3); (1%nat, 1 / 2); (1%nat, 1 / 2); (2%nat, 1 / 2); (2%nat, 1 / 2)].
Definition P7 : cmat := map (fun j => map (fun q => Cmult (RtoC (snd q)) (nth j (iv (fst q)) (RtoC 0))) gm7) (seq 0 3).

Definition noise7 : list R := [-1; -1; 2; -1; 1; -3; 3].
Definition half7 (K : R) : list C := [RtoC (1 / 2); RtoC (1 / 2); RtoC K].
Definition data7 (K : R) : list C := map RtoC [x + K - 1; x + K - 1; x + K + 2; 1 + K - 1; 1 + K + 1; x + K - 3; x + K + 3].
Definition levelsL : lib :=
  {| l_parse := fun _ => None;
     l_lstsq := fun B z _ => if list_eq_dec (list_eq_dec Cdec) B B7 then
        if list_eq_dec Cdec z (data7 0) then Ok (half7 0, [norm2 (csub (cmatvec B (half7 0)) z)], 3%nat, [])
        else if list_eq_dec Cdec z (data7 1000) then Ok (half7 1000, [norm2 (csub (cmatvec B (half7 1000)) z)], 3%nat, [])
        else Err LinAlgError else Err LinAlgError;
     l_pinv := fun X => if list_eq_dec (list_eq_dec Cdec) X B7 then Ok P7 else Err LinAlgError; l_inv := inv3;
     l_svd := fun M => Ok (M, map (fun _ => 0) M, M); l_eigvals := fun M => Ok (map (fun _ => RtoC 0) M);
     l_is_PD := fun _ => true; l_spacing := fun _ => 0;
     l_mvn := fun _ m _ n => Ok (repeat m n); l_lomb := fun t x f => map (fun _ => 0) f;
     l_argsort := ins_argsort |}.

Lemma levels_inv : inv_exact levelsL.
Proof. exact (noisy_inv [] [] []). Qed.

Lemma fit7 K : csub (data7 K) (cmatvec B7 (half7 K)) = map RtoC noise7.
Proof.
  unfold csub, data7, B7, half7, rw, cmatvec, noise7. cbn [map combine fst snd]. unfold cdot. cbn [map combine fst snd csum fold_right].
  repeat (apply f_equal2; [apply injective_projections; cbn; field|]). reflexivity.
Qed.
Lemma cdot3 a b c p q r : cdot [a; b; c] [p; q; r] = Cplus (Cmult a p) (Cplus (Cmult b q) (Cplus (Cmult c r) (RtoC 0))).
Proof. reflexivity. Qed.
Lemma split7 K a b c : norm2 (csub (cmatvec B7 [a; b; c]) (data7 K)) =
  norm2 (cmatvec B7 [Cminus a (RtoC (1 / 2)); Cminus b (RtoC (1 / 2)); Cminus c (RtoC K)]) + 26.
Proof.
  destruct a as [a1 a2], b as [b1 b2], c as [c1 c2]. unfold norm2, csub, data7, B7, rw, cmatvec. cbn [map combine fst snd].
  rewrite !cdot3. cbv [rsum fold_right Cmult Cplus Cminus Copp RtoC fst snd]. field.
Qed.
Lemma norm2_zero (l : list C) : norm2 l <= 0 -> forall z, In z l -> fst z = 0 /\ snd z = 0.
Proof.
  induction l as [|z l IH]; intros H w Hw; [destruct Hw|].
  change (norm2 (z :: l)) with ((fst z ^ 2 + snd z ^ 2) + norm2 l) in H.
  assert (G := norm2_nonneg l). assert (G1 := pow2_ge_0 (fst z)). assert (G2 := pow2_ge_0 (snd z)).
  assert (SQ : forall a, a ^ 2 <= 0 -> a = 0) by (intros a Ha; destruct (Req_dec a 0) as [|N]; [assumption|]; assert (0 < a ^ 2) by (now apply pow2_gt_0); lra).
  destruct Hw as [<-|Hw]; [split; apply SQ; lra|]. apply IH; [lra|exact Hw].
Qed.
Lemma zero7 a b c : norm2 (cmatvec B7 [a; b; c]) <= 0 -> a = RtoC 0 /\ b = RtoC 0 /\ c = RtoC 0.
Proof.
  destruct a as [a1 a2], b as [b1 b2], c as [c1 c2]. intros H.
  assert (Z : forall z, In z (cmatvec B7 [(a1, a2); (b1, b2); (c1, c2)]) -> fst z = 0 /\ snd z = 0).
  { intros z Hz. exact (norm2_zero _ H z Hz). }
  assert (Z0 := Z _ (or_introl eq_refl)). assert (Z1 := Z _ (or_intror (or_intror (or_intror (or_introl eq_refl))))).
  assert (Z2 := Z _ (or_intror (or_intror (or_intror (or_intror (or_intror (or_introl eq_refl))))))).
  unfold rw in Z0, Z1, Z2. rewrite cdot3 in Z0, Z1, Z2. cbn in Z0, Z1, Z2. clear Z H.
  destruct Z0 as [P1 P2], Z1 as [P3 P4], Z2 as [P5 P6].
  assert (E1 : (a2 - b2) * y = 0) by nra. assert (E2 : (a1 - b1) * y = 0) by nra.
  apply Rmult_integral in E1, E2. assert (D1 : a2 = b2) by (destruct E1; [lra|contradiction]). assert (D2 : a1 = b1) by (destruct E2; [lra|contradiction]). subst b1 b2.
  assert (F1 : a1 * (x - 1) = 0) by nra. assert (F2 : a2 * (x - 1) = 0) by nra. apply Rmult_integral in F1, F2.
  assert (a1 = 0) by (destruct F1; [assumption|exfalso; apply Hx; lra]). assert (a2 = 0) by (destruct F2; [assumption|exfalso; apply Hx; lra]). subst.
  assert (c1 = 0) by lra. assert (c2 = 0) by lra. subst. repeat split.
Qed.
Lemma least7 K m' : length m' = 3%nat -> norm2 (csub (cmatvec B7 (half7 K)) (data7 K)) <= norm2 (csub (cmatvec B7 m') (data7 K)) /\
  (m' <> half7 K -> norm2 (csub (cmatvec B7 (half7 K)) (data7 K)) < norm2 (csub (cmatvec B7 m') (data7 K))).
Proof.
  intros Hm. destruct m' as [|a [|b [|c [|]]]]; try discriminate. unfold half7. rewrite !split7.
  assert (Z : norm2 (cmatvec B7 [Cminus (RtoC (1 / 2)) (RtoC (1 / 2)); Cminus (RtoC (1 / 2)) (RtoC (1 / 2)); Cminus (RtoC K) (RtoC K)]) = 0).
  { replace (Cminus (RtoC (1 / 2)) (RtoC (1 / 2))) with (RtoC 0) by ring. replace (Cminus (RtoC K) (RtoC K)) with (RtoC 0) by ring.
    unfold norm2, B7, rw, cmatvec. cbn [map]. rewrite !cdot3. cbv [rsum fold_right Cmult Cplus RtoC fst snd]. ring. }
  rewrite Z. assert (G := norm2_nonneg (cmatvec B7 [Cminus a (RtoC (1 / 2)); Cminus b (RtoC (1 / 2)); Cminus c (RtoC K)])). split; [lra|].
  intros NE. destruct (Rle_lt_dec (norm2 (cmatvec B7 [Cminus a (RtoC (1 / 2)); Cminus b (RtoC (1 / 2)); Cminus c (RtoC K)])) 0) as [LE|LT]; [|lra].
  exfalso. apply NE. apply zero7 in LE. destruct LE as (E1 & E2 & E3).
  assert (S : forall p q, Cminus p q = RtoC 0 -> p = q).
  { intros p q E. replace p with (Cplus (Cminus p q) q) by ring. rewrite E. ring. }
  now rewrite (S _ _ E1), (S _ _ E2), (S _ _ E3).
Qed.
Lemma levels_out B z rc q : l_lstsq levelsL B z rc = Ok q -> B = B7 /\ exists K, z = data7 K /\ q = (half7 K, [norm2 (csub (cmatvec B (half7 K)) z)], 3%nat, []).
Proof.
  cbn [levelsL l_lstsq]. destruct (list_eq_dec _ B B7) as [->|]; [|discriminate].
  destruct (list_eq_dec Cdec z (data7 0)) as [->|]; [intros H; apply Ok_inj in H; eauto|].
  destruct (list_eq_dec Cdec z (data7 1000)) as [->|]; [intros H; apply Ok_inj in H; eauto|discriminate].
Qed.
Lemma B7_rows row : In row B7 -> length row = 3%nat.
Proof. unfold B7. intros H. repeat (destruct H as [<-|H]; [reflexivity|]). destruct H. Qed.
Lemma levels_contract rc : lstsq_contract levelsL rc.
Proof.
  intros B z m r k s H. apply levels_out in H. destruct H as (-> & K & -> & H). injection H as -> -> _ _. split; [|split].
  - intros row Hr. now rewrite (B7_rows _ Hr).
  - intros m' Hm'. now apply least7.
  - right. split; [reflexivity|]. intros m' Hm' NE. apply least7; auto.
Qed.
Lemma levels_shape : lstsq_shape levelsL.
Proof.
  intros B z rc m r k s H row Hr. apply levels_out in H. destruct H as (-> & K & -> & H). injection H as -> _ _ _. now rewrite (B7_rows _ Hr).
Qed.
Definition levels (K : R) : Prop := K = 0 \/ K = 1000.
Lemma levels_in K rc : levels K -> l_lstsq levelsL B7 (data7 K) rc = Ok (half7 K, [norm2 (csub (cmatvec B7 (half7 K)) (data7 K))], 3%nat, []).
Proof.
  intros H. cbn [levelsL l_lstsq]. destruct (list_eq_dec _ B7 B7) as [_|N]; [|now exfalso].
  destruct (list_eq_dec Cdec (data7 K) (data7 0)) as [E|N0].
  - assert (K = 0). { unfold data7 in E. cbn [map] in E. injection E as E. lra. } now subst K.
  - destruct H as [-> | ->]; [now exfalso|]. destruct (list_eq_dec Cdec (data7 1000) (data7 1000)) as [_|N]; [reflexivity|now exfalso].
Qed.

(** ** leverages, scale, weights *)
Definition lev7 : list R := [1 / 3; 1 / 3; 1 / 3; 1 / 2; 1 / 2; 1 / 2; 1 / 2].
Lemma leverage7 : leverage levelsL B7 = Ok lev7.
Proof.
  unfold leverage. cbn [levelsL l_pinv]. destruct (list_eq_dec _ B7 B7) as [_|N]; [|now exfalso]. cbn [bind]. apply f_equal.
  unfold enumerate, B7, lev7. cbn [length seq combine map fst snd]. unfold P7, gm7, col, rw. cbn [seq map fst snd nth iv]. rewrite !cdot3.
  assert (M : forall z (h : R), 0 <= h -> z = RtoC h -> Cmod z = h) by (intros z h Hh ->; rewrite Cmod_R; now apply Rabs_pos_eq).
  repeat (apply f_equal2; [apply M; [lra|]; apply injective_projections; cbn; field; repeat split; lra || assumption|]). reflexivity.
Qed.
Definition s7 : R := 2 / 0.6745.
Lemma scale7 : scale_is (map RtoC noise7) s7.
Proof.
  exists (RtoC (-1)), 2. split; [|split; [|reflexivity]].
  - exists (map RtoC [-3; -1; -1; -1; 1; 2; 3]). split; [|split].
    + apply Permutation_map. unfold noise7.
      transitivity [-3; -1; -1; 2; -1; 1; 3]; [apply Permutation_sym; apply (Permutation_cons_app [-1; -1; 2; -1; 1] [3] (-3)); reflexivity|].
      constructor. constructor. constructor. apply (perm_trans (l' := [-1; 2; 1; 3])); [apply perm_swap|]. constructor. apply perm_swap.
    + repeat (constructor; [|repeat (constructor; [unfold lex; cbn; lra|]); constructor]). constructor.
    + cbn. apply injective_projections; cbn; field.
  - assert (E : map (fun z => Cmod (Cminus z (RtoC (-1)))) (map RtoC noise7) = [0; 0; 3; 0; 2; 2; 4]).
    { assert (M : forall p q, 0 <= q -> p + 1 = q \/ p + 1 = - q -> Cmod (Cminus (RtoC p) (RtoC (-1))) = q).
      { intros p q Hq Hp. replace (Cminus (RtoC p) (RtoC (-1))) with (RtoC (p + 1)) by (apply injective_projections; cbn; ring).
        rewrite Cmod_R. destruct Hp as [-> | ->]; [|rewrite Rabs_Ropp]; now apply Rabs_pos_eq. }
      unfold noise7. cbn [map]. repeat (apply f_equal2; [apply M; [lra|first [left; lra | right; lra]]|]). reflexivity. }
    rewrite E. exists [0; 0; 0; 2; 2; 3; 4]. split; [|split; [|cbn; lra]].
    + constructor. constructor. apply (perm_trans (l' := [0; 3; 2; 2; 4])); [apply perm_swap|]. constructor.
      apply (perm_trans (l' := [2; 3; 2; 4])); [apply perm_swap|]. constructor. apply perm_swap.
    + repeat (constructor; [|repeat (constructor; [lra|]); constructor]). constructor.
Qed.
Definition wt (n h : R) : R := 1 / (1 + (Rabs n / (2.385 * sqrt (1 - h) * s7)) ^ 2).
Definition W7 : list R := [wt 1 (1 / 3); wt 1 (1 / 3); wt 2 (1 / 3); wt 1 (1 / 2); wt 1 (1 / 2); wt 3 (1 / 2); wt 3 (1 / 2)].
Lemma wt_even n h : wt (- n) h = wt n h.
Proof. unfold wt. now rewrite Rabs_Ropp. Qed.
Lemma wt_val n h : h < 1 -> wt n h = 1 / (1 + n ^ 2 / (2.385 ^ 2 * (1 - h) * s7 ^ 2)).
Proof.
  intros H. unfold wt. assert (S : 0 < sqrt (1 - h)) by (apply sqrt_lt_R0; lra). assert (0 < s7) by (unfold s7; lra).
  assert (Q : sqrt (1 - h) ^ 2 = 1 - h) by (rewrite pow2_sqrt; lra). set (q := sqrt (1 - h)) in *. clearbody q. rewrite <- Q.
  assert (A : n ^ 2 = Rabs n ^ 2) by (rewrite RPow_abs, Rabs_pos_eq; [reflexivity|apply pow2_ge_0]). rewrite A.
  replace (Rabs n ^ 2 / (2.385 ^ 2 * q ^ 2 * s7 ^ 2)) with ((Rabs n / (2.385 * q * s7)) ^ 2) by (field; lra). reflexivity.
Qed.
Lemma wt_range n h : 0 < wt n h <= 1.
Proof.
  unfold wt. assert (G := pow2_ge_0 (Rabs n / (2.385 * sqrt (1 - h) * s7))). set (q := (Rabs n / (2.385 * sqrt (1 - h) * s7)) ^ 2) in *. clearbody q. split.
  - apply Rdiv_lt_0_compat; lra.
  - apply Rmult_le_reg_r with (1 + q); [lra|]. unfold Rdiv. rewrite Rmult_assoc, Rinv_l; lra.
Qed.
Lemma wt_12 : wt 1 (1 / 3) - wt 2 (1 / 3) > 7 / 100.
Proof. rewrite !wt_val by lra. unfold s7. lra. Qed.
Lemma next7 w : wf_of "cauchy" = Some w ->
  map w (r_normed (map RtoC noise7) (map (fun h => xdiv x1 (xmul (Fin 2.385) (xsqrt (Fin (1 - h))))) lev7)) = map Fin W7.
Proof.
  intros Hw. assert (N := next_formula B7 (data7 0) "cauchy" 2.385 lev7 w _ Hw eq_refl (half7 0)).
  unfold reweighted, misfits in N. rewrite !fit7 in N.
  rewrite (N ltac:(lra) ltac:(unfold lev7; repeat (apply Forall_cons; [lra|]); apply Forall_nil) s7); clear N.
  - rewrite (Rabs_pos_eq 2.385) by lra. unfold noise7, lev7, W7. cbn [map combine fst snd]. rewrite !Cmod_R.
    unfold wt. rewrite !(Rabs_pos_eq 1), !(Rabs_pos_eq 2), !(Rabs_pos_eq 3), (Rabs_left (-1)), (Rabs_left (-3)) by lra.
    replace (- -1) with 1 by ring. replace (- -3) with 3 by ring. reflexivity.
  - exact scale7.
  - unfold s7. lra.
Qed.

Definition kw7 : pyval := PDict false [("weight_function", PStr "cauchy"); ("maxit", PNum 1)].
Lemma rob7 K : levels K -> exists r, robustfit_kw levelsL B7 (data7 K) kw7 = Ok r /\ rf_b r = half7 K /\ rf_w r = map Fin W7.
Proof.
  intros HK.
  assert (K1 : kw_nat (PNum 1) = Ok 1%nat).
  { unfold kw_nat. assert (I : Int_part 1 = 1%Z).
    { unfold Int_part. rewrite <- (tech_up 1 2); [reflexivity|lra|lra]. }
    rewrite I. destruct (Req_EM_T 1 1) as [_|Z]; [reflexivity|]. now destruct Z. }
  unfold robustfit_kw, kw7. cbn [dkeys map fst forallb existsb robust_keys String.eqb Ascii.eqb Bool.eqb orb andb negb kget dget snd bind kw_num].
  rewrite K1. cbn [bind]. unfold robustfit.
  replace (dget tune_defaults "cauchy") with (Some (2385 / 10 ^ 3)) by reflexivity. cbn [bind].
  replace (wfunc "cauchy") with (Ok (fun r => Ok (map w_cauchy r))) by reflexivity. cbn [bind].
  rewrite leverage7. cbn [bind rf_loop].
  assert (WS : exists ls, wsolve levelsL B7 (data7 K) (PNum 1) (map (fun _ => x1) (data7 K)) = Ok ls /\ ls_b ls = half7 K).
  { unfold wsolve. replace (all_finite (map (fun _ => x1) (data7 K))) with (Some (repeat 1 7)) by reflexivity.
    replace (map (fun p => map (Cmult (RtoC (fst p))) (snd p)) (combine (repeat 1 7) B7)) with B7.
    2: { unfold B7, rw. cbn [repeat combine map fst snd]. rewrite !Cmult_1_l. reflexivity. }
    replace (map (fun p => Cmult (RtoC (fst p)) (snd p)) (combine (repeat 1 7) (data7 K))) with (data7 K).
    2: { unfold data7. cbn [repeat combine map fst snd]. rewrite !Cmult_1_l. reflexivity. }
    rewrite (levels_in K _ HK). cbn [bind]. eexists. split; [reflexivity|]. reflexivity. }
  destruct WS as (ls & WS & LB). rewrite WS. cbn [bind]. rewrite residual_misfits, LB. unfold misfits. rewrite fit7.
  replace (2385 / 10 ^ 3) with 2.385 by lra. eexists. split; [reflexivity|]. cbn [rf_b rf_w it_ls]. split; [exact LB|].
  exact (next7 w_cauchy eq_refl).
Qed.

(** ** the covariance matrices can be inverted *)
Lemma gram7 a b c d : 0 < a -> 0 < b -> 0 < c -> 0 < d -> let W := [a; a; b; c; c; d; d] in
  (exists X, inv3 (gram (cconj_mat B7) B7 W 3) = Ok X) /\ exists X, inv3 (gram B7 B7 W 3) = Ok X.
Proof.
  intros Ha Hb Hc Hd W. unfold W. clear W.
  assert (P : 0 < (2 * a + b) * (2 * c) * (2 * d) * (2 * y * (1 - x)) ^ 2).
  { assert (0 < (2 * y * (1 - x)) ^ 2).
    { apply pow2_gt_0. apply Rmult_integral_contrapositive. split; [|lra]. apply Rmult_integral_contrapositive. split; [lra|exact Hy]. }
    apply Rmult_lt_0_compat; [|assumption]. apply Rmult_lt_0_compat; [apply Rmult_lt_0_compat; lra|lra]. }
  unfold gram, cconj_mat, B7, rw. cbn [seq map combine csum fold_right nth fst snd]. unfold inv3. split.
  - destruct (Cdec _ _) as [E|E]; [exfalso|eauto]. apply (f_equal fst) in E. cbv [det3 Cmult Cplus Cminus Copp Cconj RtoC fst snd] in E.
    assert (4 * ((2 * a + b) * (2 * c) * (2 * d) * (2 * y * (1 - x)) ^ 2) = 0); [|lra]. rewrite <- E. ring.
  - destruct (Cdec _ _) as [E|E]; [exfalso|eauto]. apply (f_equal fst) in E. cbv [det3 Cmult Cplus Cminus Copp Cconj RtoC fst snd] in E.
    assert (- (4 * ((2 * a + b) * (2 * c) * (2 * d) * (2 * y * (1 - x)) ^ 2)) = 0); [|lra]. rewrite <- E. ring.
Qed.
End Rows.
