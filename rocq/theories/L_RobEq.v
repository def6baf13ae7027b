(** The robust fit of scaled and shifted data. *)
From Coq Require Import Lia Lra Psatz.
From Coquelicot Require Import Coquelicot.
From Verif Require Import M_Base M_Lib M_Robust S_Recon S_Model S_Robust S_RobustEq L_Base L_Slv2 L_Model L_Lsq L_Ellipse L_Robust L_Robust2 L_Robust3 L_Select L_Affine.
Open Scope R_scope.
Open Scope string_scope.

Lemma affine_len k b d : length d = length b -> length (affine k b d) = length b.
Proof. intros H. unfold affine. rewrite map_length, combine_length. lia. Qed.
Lemma affine_cons k x b z d : affine k (x :: b) (z :: d) = Cplus (Cmult (RtoC k) x) z :: affine k b d.
Proof. reflexivity. Qed.
Lemma csum_eq a l : csum (a :: l) = Cplus a (csum l). Proof. reflexivity. Qed.
Lemma cdot_affine k row : forall b d, length d = length b -> cdot row (affine k b d) = Cplus (Cmult (RtoC k) (cdot row b)) (cdot row d).
Proof.
  unfold cdot. induction row as [|a row IH]; intros [|x b] [|z d] H; try discriminate; try (cbn; apply injective_projections; cbn; ring).
  rewrite affine_cons. cbn [combine map fst snd]. rewrite !csum_eq, IH by (cbn in H; lia). ring.
Qed.
Lemma matvec_affine k X b d : length d = length b -> cmatvec X (affine k b d) = affine k (cmatvec X b) (cmatvec X d).
Proof.
  intros H. unfold cmatvec. induction X as [|row X IH]; [reflexivity|]. cbn [map]. rewrite affine_cons, IH, cdot_affine by exact H. reflexivity.
Qed.
Lemma csub_affine k a b d : length a = length b -> length d = length b -> csub (affine k a d) (affine k b d) = map (Cmult (RtoC k)) (csub a b).
Proof.
  unfold csub. revert b d. induction a as [|x a IH]; intros [|y b] [|z d] H1 H2; try discriminate; [reflexivity|].
  rewrite !affine_cons. cbn [combine map fst snd]. rewrite IH by (cbn in *; lia). f_equal. ring.
Qed.
Lemma norm2_scaled k l : norm2 (map (Cmult (RtoC k)) l) = k * k * norm2 l.
Proof.
  unfold norm2. rewrite map_map. induction l as [|[a b] l IH]; [cbn; unfold rsum; cbn; ring|]. cbn [map]. rewrite !rsum_cons, IH. cbn. ring.
Qed.
Lemma affine_inv k b d : k <> 0 -> length d = length b -> exists c, length c = length b /\ affine k c d = b.
Proof.
  intros K. revert d. induction b as [|x b IH]; intros [|z d] H; try discriminate; [exists []; auto|].
  destruct (IH d) as (c & H1 & H2); [cbn in H; lia|]. exists (Cmult (RtoC (/ k)) (Cminus x z) :: c). split; [cbn; lia|].
  rewrite affine_cons, H2. f_equal. rewrite Cmult_assoc, <- RtoC_mult, Rinv_r by exact K. ring.
Qed.
Lemma affine_inj k a b d : k <> 0 -> length a = length b -> length d = length b -> affine k a d = affine k b d -> a = b.
Proof.
  intros K. revert b d. induction a as [|x a IH]; intros [|y b] [|z d] H1 H2 H; try discriminate; [reflexivity|].
  rewrite !affine_cons in H. assert (E1 : Cplus (Cmult (RtoC k) x) z = Cplus (Cmult (RtoC k) y) z) by congruence.
  assert (E2 : affine k a d = affine k b d) by congruence. f_equal; [|apply (IH b d); auto; cbn in *; lia].
  assert (E3 : Cmult (RtoC (/ k)) (Cmult (RtoC k) x) = Cmult (RtoC (/ k)) (Cmult (RtoC k) y)).
  { f_equal. transitivity (Cminus (Cplus (Cmult (RtoC k) x) z) z); [ring|]. rewrite E1. ring. }
  rewrite !Cmult_assoc, <- !RtoC_mult, Rinv_l, !Cmult_1_l in E3 by exact K. exact E3.
Qed.

(** the only best answer moves with the data *)
Lemma best_moves k B x m x' m' d : k <> 0 -> (forall row, In row B -> length row = length m) -> length m' = length m -> length d = length m -> length x = length B ->
  x' = affine k x (cmatvec B d) ->
  (forall q, length q = length m' -> norm2 (csub (cmatvec B m') x') <= norm2 (csub (cmatvec B q) x')) ->
  (forall q, length q = length m -> q <> m -> norm2 (csub (cmatvec B m) x) < norm2 (csub (cmatvec B q) x)) ->
  m' = affine k m d /\ norm2 (csub (cmatvec B m') x') = k * k * norm2 (csub (cmatvec B m) x).
Proof.
  intros K HB Lm Ld Lx -> H1 H2.
  assert (LB : forall q, length (cmatvec B q) = length B) by (intros; unfold cmatvec; now rewrite map_length).
  assert (N : forall q, length q = length m -> norm2 (csub (cmatvec B (affine k q d)) (affine k x (cmatvec B d))) = k * k * norm2 (csub (cmatvec B q) x)).
  { intros q Hq. rewrite matvec_affine by congruence. rewrite csub_affine by (rewrite !LB; congruence). apply norm2_scaled. }
  destruct (affine_inv k m' d K ltac:(congruence)) as (q & Hq & E).
  assert (Q : q = m).
  { destruct (list_eq_dec Ceq_dec q m) as [|NE]; [assumption|exfalso]. assert (A := H2 q ltac:(congruence) NE).
    assert (Lq : length (affine k m d) = length m') by (rewrite affine_len; congruence). assert (A' := H1 (affine k m d) Lq). rewrite <- E, !N in A' by congruence.
    assert (0 < k * k) by nra. nra. }
  subst q. split; [now symmetry|]. rewrite <- E. apply N. reflexivity.
Qed.

Section Moved.
Variables (L : lib) (X : cmat) (y : list C) (rcond : pyval) (tol : R) (name : string) (k : R) (d : list C).
Variable wfn : list xr -> res (list xr).
Variable rfac : list xr.
Hypothesis LC : lstsq_contract L rcond.
Hypothesis LX : length X = length y.
Hypothesis K : k <> 0.
Hypothesis D : forall row, In row X -> length row = length d.
Hypothesis NX : X <> [].
Notation y' := (affine k y (cmatvec X d)).

Definition ls_moved (ls ls' : lsres) : Prop := ls_b ls' = affine k (ls_b ls) d /\ ls_rsumsq ls' = k * k * ls_rsumsq ls /\ length (ls_b ls) = length d.
Lemma y'_len : length y' = length y.
Proof. apply affine_len. unfold cmatvec. now rewrite map_length. Qed.
Lemma wdata_moved w : length w = length y -> wdata w y' = affine k (wdata w y) (cmatvec (wrows w X) d).
Proof.
  unfold wdata, wrows, cmatvec. clear NX D LC. revert y X LX. induction w as [|a w IH]; intros [|z y] [|r X] LX H; try discriminate; [reflexivity|].
  cbn [map combine]. rewrite !affine_cons. cbn [combine map fst snd]. rewrite IH by (cbn in *; lia). f_equal. rewrite cdot_scaled. ring.
Qed.
Lemma wrow_in w row : In row (wrows w X) -> length row = length d.
Proof.
  unfold wrows. intros H. apply in_map_iff in H. destruct H as ([a r] & <- & H). rewrite map_length. apply in_combine_r in H. now apply D.
Qed.
Lemma wsolve_moved w ls ls' : length w = length y -> wsolve L X y rcond w = Ok ls -> wsolve L X y' rcond w = Ok ls' -> ls_moved ls ls'.
Proof.
  unfold wsolve. intros Lw. destruct (all_finite w) as [v|] eqn:F; [|discriminate]. apply all_finite_spec in F. subst w. rewrite map_length in Lw.
  change (map (fun p => map (Cmult (RtoC (fst p))) (snd p)) (combine v X)) with (wrows v X).
  change (map (fun p => Cmult (RtoC (fst p)) (snd p)) (combine v y)) with (wdata v y).
  change (map (fun p => Cmult (RtoC (fst p)) (snd p)) (combine v y')) with (wdata v y').
  destruct (l_lstsq L (wrows v X) (wdata v y) rcond) as [[[[b rss] kk] sg]|e] eqn:E; [|discriminate]. cbn [bind].
  destruct (l_lstsq L (wrows v X) (wdata v y') rcond) as [[[[b' rss'] kk'] sg']|e] eqn:E'; [|discriminate]. cbn [bind].
  destruct (LC _ _ _ _ _ _ E) as (H1 & H2 & H3). destruct (LC _ _ _ _ _ _ E') as (H1' & H2' & H3').
  destruct H3 as [->|[-> H3]]; [discriminate|]. destruct H3' as [->|[-> H3']]; [discriminate|]. intros Q Q'. apply Ok_inj in Q, Q'. subst ls ls'.
  unfold ls_moved. cbn [ls_b ls_rsumsq].
  assert (NW : wrows v X <> []).
  { unfold wrows. destruct X as [|r0 X0]; [congruence|]. destruct v; [cbn in *; lia|]. discriminate. }
  destruct (wrows v X) as [|r0 rs] eqn:EW; [congruence|]. rewrite <- EW in *.
  assert (I : In r0 (wrows v X)) by (rewrite EW; now left).
  assert (Lb : length b = length d) by (rewrite <- (H1 _ I); now apply (wrow_in v)). assert (Lb' : length b' = length d) by (rewrite <- (H1' _ I); now apply (wrow_in v)).
  destruct (best_moves k (wrows v X) (wdata v y) b (wdata v y') b' d) as [Q1 Q2]; auto; try congruence.
  - unfold wdata, wrows. rewrite !map_length, !combine_length. lia.
  - now apply wdata_moved.
Qed.
Lemma resid_moved b : length d = length b -> residual X y' (affine k b d) = map (Cmult (RtoC k)) (residual X y b).
Proof.
  intros H. rewrite !residual_misfits. unfold misfits. rewrite matvec_affine by exact H. apply csub_affine; unfold cmatvec; rewrite !map_length; congruence.
Qed.
Lemma normed_moved r : r_normed (map (Cmult (RtoC k)) r) rfac = r_normed r rfac.
Proof.
  unfold r_normed. destruct r as [|r0 rs]; [reflexivity|]. set (r := r0 :: rs). 
  assert (S : sigma_hat (map (Cmult (RtoC k)) r) = Rabs k * sigma_hat r).
  { assert (E := scale_moves r k (RtoC 0) ltac:(discriminate)). rewrite <- E. apply f_equal. apply map_ext. intros z. ring. }
  rewrite S. clear S. generalize (sigma_hat r) as s. intros s. assert (KP := Rabs_pos_lt k K).
  generalize r. clear r r0 rs. intros r. revert rfac. induction r as [|z r IH]; intros [|f rfac]; try reflexivity. cbn [map combine fst snd]. rewrite IH. f_equal. f_equal.
  rewrite Cmod_mult, Cmod_R.
  change (Fin (Rabs k * Cmod z)) with (xs (Rabs k) (Fin (Cmod z))). change (Fin (Rabs k * s)) with (xs (Rabs k) (Fin s)).
  rewrite xs_mul_r, xdiv_xs by exact KP. unfold Rdiv. rewrite Rinv_r by lra. apply xs_1.
Qed.

Definition it_moved (o o' : iter) : Prop := ls_moved (it_ls o) (it_ls o') /\ it_w o' = it_w o /\ it_meansq o' = xs (k * k) (it_meansq o) /\
  it_resid o' = map (Cmult (RtoC k)) (it_resid o).
Definition old_moved (o o' : option iter) : Prop := match o, o' with None, None => True | Some o, Some o' => it_moved o o' | _, _ => False end.
Hypothesis WL : forall r w, wfn (r_normed r rfac) = Ok w -> length r = length y -> length w = length y.

Lemma loop_moved fuel : forall i w o o' out out', length w = length y -> old_moved o o' ->
  rf_loop L X y rcond tol wfn rfac fuel i w o = Ok out -> rf_loop L X y' rcond tol wfn rfac fuel i w o' = Ok out' ->
  let '(ls, w1, rs, n, st) := out in let '(ls', w1', rs', n', st') := out' in
  ls_moved ls ls' /\ w1' = w1 /\ rs' = map (Cmult (RtoC k)) rs /\ n' = n /\ st' = st.
Proof.
  assert (KK : 0 < k * k) by nra.
  induction fuel as [|fuel IH]; intros i w o o' out out' Lw O H H'.
  - cbn [rf_loop] in *. destruct o as [o|], o' as [o'|]; try contradiction; try discriminate. apply Ok_inj in H, H'. subst out out'.
    destruct O as (O1 & O2 & O3 & O4). auto.
  - cbn [rf_loop] in *. destruct (wsolve L X y rcond w) as [ls|] eqn:E; [|discriminate]. destruct (wsolve L X y' rcond w) as [ls'|] eqn:E'; [|discriminate].
    cbn [bind] in *. assert (M := wsolve_moved w ls ls' Lw E E'). assert (M' := M). destruct M' as (M1 & M2 & M3).
    assert (ME : xdiv (Fin (ls_rsumsq ls')) (xsum w) = xs (k * k) (xdiv (Fin (ls_rsumsq ls)) (xsum w))).
    { rewrite M2. change (Fin (k * k * ls_rsumsq ls)) with (xs (k * k) (Fin (ls_rsumsq ls))). rewrite <- (xs_1 (xsum w)) at 1.
      rewrite xdiv_xs by (exact KK || lra). f_equal. field. }
    rewrite ME in H'. set (ms := xdiv (Fin (ls_rsumsq ls)) (xsum w)) in *. clearbody ms.
    assert (RM : residual X y' (ls_b ls') = map (Cmult (RtoC k)) (residual X y (ls_b ls))) by (rewrite M1; apply resid_moved; congruence).
    rewrite RM, normed_moved in H'.
    assert (CONT : forall r r', (do w' <- wfn (r_normed (residual X y (ls_b ls)) rfac);
        rf_loop L X y rcond tol wfn rfac fuel (S i) w' (Some {| it_ls := ls; it_w := w; it_meansq := ms; it_resid := residual X y (ls_b ls) |})) = Ok r ->
      (do w' <- wfn (r_normed (residual X y (ls_b ls)) rfac);
        rf_loop L X y' rcond tol wfn rfac fuel (S i) w' (Some {| it_ls := ls'; it_w := w; it_meansq := xs (k * k) ms; it_resid := map (Cmult (RtoC k)) (residual X y (ls_b ls)) |})) = Ok r' ->
      let '(ls, w1, rs, n, st) := r in let '(ls', w1', rs', n', st') := r' in
      ls_moved ls ls' /\ w1' = w1 /\ rs' = map (Cmult (RtoC k)) rs /\ n' = n /\ st' = st).
    { intros r r' R1 R2. destruct (wfn (r_normed (residual X y (ls_b ls)) rfac)) as [w'|] eqn:W; [|discriminate]. cbn [bind] in *.
      refine (IH _ _ _ _ _ _ _ _ R1 R2).
      - apply (WL _ _ W). unfold residual, cmatvec. rewrite map_length, combine_length, map_length. lia.
      - repeat split; auto. }
    destruct o as [o|], o' as [o'|]; try contradiction; [|now apply CONT].
    destruct O as (O1 & O2 & O3 & O4). rewrite O3 in H'.
    assert (IM : xdiv (xsub (xs (k * k) (it_meansq o)) (xs (k * k) ms)) (xs (k * k) (it_meansq o)) = xdiv (xsub (it_meansq o) ms) (it_meansq o)).
    { assert (XS : xsub (xs (k * k) (it_meansq o)) (xs (k * k) ms) = xs (k * k) (xsub (it_meansq o) ms)).
      { unfold xsub. rewrite <- xs_add by exact KK. f_equal. destruct ms; cbn; try reflexivity. f_equal. ring. }
      rewrite XS, xdiv_xs by exact KK. replace (k * k / (k * k)) with 1 by (field; lra). apply xs_1. }
    rewrite IM in H'. set (imp := xdiv _ (it_meansq o)) in *. clearbody imp.
    destruct (xlt imp (Fin 0)).
    + apply Ok_inj in H, H'. subst out out'. rewrite O2, O4. auto.
    + destruct (xlt imp (Fin tol)); [|now apply CONT]. apply Ok_inj in H, H'. subst out out'. auto.
Qed.
End Moved.

Lemma rms_scaled k r : rms (map (Cmult (RtoC k)) r) = Rabs k * rms r.
Proof.
  unfold rms. rewrite map_length, map_map.
  replace (rsum (map (fun x => Cmod (Cmult (RtoC k) x) * Cmod (Cmult (RtoC k) x)) r)) with (k * k * rsum (map (fun z => Cmod z * Cmod z) r)).
  - unfold Rdiv. rewrite Rmult_assoc. rewrite sqrt_mult_alt by nra. rewrite <- sqrt_Rsqr_abs. reflexivity.
  - induction r as [|z r IH]; [unfold rsum; cbn; ring|]. cbn [map]. rewrite !rsum_cons, <- IH. rewrite Cmod_mult, Cmod_R.
    assert (Q : Rabs k * Rabs k = k * k) by (rewrite <- Rabs_mult; apply Rabs_pos_eq; nra). rewrite <- Q. ring.
Qed.

Lemma robust_moved L X y name tune rcond tol maxit k d r r' : lstsq_contract L rcond -> length X = length y -> X <> [] ->
  (forall row, In row X -> length row = length d) -> k <> 0 ->
  robustfit L X y name tune rcond tol maxit = Ok r -> robustfit L X (affine k y (cmatvec X d)) name tune rcond tol maxit = Ok r' ->
  rf_b r' = affine k (rf_b r) d /\ length (rf_b r) = length d /\ rf_w r' = rf_w r /\ rf_leverage r' = rf_leverage r /\ rf_iterations r' = rf_iterations r /\
  rf_rms_resid r' = Rabs k * rf_rms_resid r /\ rf_ols_b r' = affine k (rf_ols_b r) d /\ rf_ols_rms_resid r' = Rabs k * rf_ols_rms_resid r.
Proof.
  intros LC LX NX HD K H H'. unfold robustfit in H, H'.
  destruct (match tune with Some t => Ok t | None => _ end) as [t|]; [|discriminate]. cbn [bind] in *.
  destruct (wfunc name) as [wf|] eqn:WF; [|discriminate]. cbn [bind] in *.
  destruct (leverage L X) as [lev|] eqn:EL; [|discriminate]. cbn [bind] in *.
  set (rfac := map (fun h => xdiv x1 (xmul (Fin t) (xsqrt (Fin (1 - h))))) lev) in *.
  assert (LR : length rfac = length y) by (unfold rfac; rewrite map_length, (leverage_len _ _ _ EL); exact LX).
  assert (L1 : length (affine k y (cmatvec X d)) = length y) by (apply affine_len; unfold cmatvec; now rewrite map_length).
  assert (W0 : map (fun _ : C => x1) (affine k y (cmatvec X d)) = map (fun _ : C => x1) y).
  { clear - L1. revert L1. generalize (affine k y (cmatvec X d)). induction y as [|a y0 IH]; intros [|b l] L1; try discriminate; [reflexivity|]. cbn [map]. f_equal. apply IH. cbn in L1. lia. }
  rewrite W0 in H'. 
  destruct maxit as [|maxit]; [discriminate|]. 
  destruct (wsolve L X y rcond (map (fun _ => x1) y)) as [f|] eqn:F; [|discriminate].
  destruct (wsolve L X (affine k y (cmatvec X d)) rcond (map (fun _ => x1) y)) as [f'|] eqn:F'; [|discriminate]. cbn [bind] in H, H'.
  assert (FM := wsolve_moved L X y rcond k d LC LX K HD NX _ f f' ltac:(now rewrite map_length) F F'). destruct FM as (F1 & F2 & F3).
  destruct (rf_loop L X y rcond tol wf rfac (S maxit) 0 (map (fun _ => x1) y) None) as [[[[[ls w] rs] n] st]|] eqn:R; [|discriminate].
  destruct (rf_loop L X (affine k y (cmatvec X d)) rcond tol wf rfac (S maxit) 0 (map (fun _ => x1) y) None) as [[[[[ls' w'] rs'] n'] st']|] eqn:R'; [|discriminate].
  cbn [bind] in H, H'.
  assert (WL : forall r w, wf (r_normed r rfac) = Ok w -> length r = length y -> length w = length y).
  { intros q v Q Lq. apply wfunc_spec in WF. destruct WF as [[_ G]|(g & phi & _ & _ & G)]; rewrite G in Q; [discriminate|]. apply Ok_inj in Q. subst v.
    unfold r_normed. rewrite !map_length, combine_length. lia. }
  assert (LM := loop_moved L X y rcond tol k d wf rfac LC LX K HD NX WL (S maxit) 0 (map (fun _ => x1) y) None None _ _ ltac:(now rewrite map_length) I R R').
  cbn beta iota in LM. destruct LM as ((M1 & M2 & M3) & -> & -> & -> & ->).
  apply Ok_inj in H, H'. subst r r'. cbn [rf_b rf_w rf_leverage rf_iterations rf_rms_resid rf_ols_b rf_ols_rms_resid].
  repeat (split; [assumption || reflexivity|]). split; [apply rms_scaled|]. split; [exact F1|].
  rewrite F2. unfold Rdiv. rewrite Rmult_assoc. rewrite sqrt_mult_alt by nra. rewrite <- sqrt_Rsqr_abs. reflexivity.
Qed.
