(** How the fit changes with the data. *)
From Coq Require Import Lia Lra Psatz Permutation.
From Verif Require Import M_Base M_Bunch M_Lib M_Tables M_Const M_Options M_Time M_Slvinit M_Harmonics M_Select M_Ellipse
  M_Robust M_Period M_Conf M_Diag M_Solve M_Recon S_Dict S_Options S_Order S_Basis S_Select S_Fit S_Ellipse S_Slv S_Recon S_Model S_Super S_Output S_Stable
  L_Base L_Options L_SolveInv L_OptSolve L_Slv L_Slv2 L_Order L_Select L_Fit L_Align L_SelOrder L_Basis L_Angle L_Ellipse L_Recon L_Recon2 L_Recon3 L_Core
  L_Ellipse2 L_Model L_Lsq L_Model2 L_Model3 L_Model4 L_Model5 L_Model6 L_Model7 L_Model8 L_Model9 L_Model10 L_Model11 L_Model12 L_Model15 L_Super L_Super2 L_Super3 L_Output L_Nested.
Open Scope R_scope.
Open Scope string_scope.

(** the values are B k, and the residual is orthogonal to everything B produces *)
Lemma fitted L t u v lat opts c si la s B sm m W : behind L t u v lat opts c si la s B (map snd sm) m W -> sorted_order (opt_value opts "order_constit") ->
  approximate (c_opt c) = false -> lstsq_minimises L -> o_method (c_opt c) = PStr "ols" -> si_t si = map fst sm -> (o_twodim (c_opt c) = false -> forall x, In x sm -> snd (snd x) = 0) ->
  length B = length sm /\ exists k, length k = ncoef (c_opt c) s /\ best (sys B (map snd sm)) k /\ Forall2 (yields c) (map fst sm) (map (fun row => cdot row k) B).
Proof.
  intros BH HS NA LM OLS S1 S3. assert (P := paired _ _ _ _ _ _ _ _ _ _ _ _ _ _ BH sm S1). split; [symmetry; exact (Forall2_len _ _ _ P)|].
  destruct (own_best _ _ _ _ _ _ _ _ _ _ _ _ _ _ BH HS NA LM OLS S1 S3) as (k & M & Bk). exists k. split; [exact (mt_len _ _ _ _ _ M)|]. split; [exact Bk|].
  assert (Y : forall x row, good_row (si_tref si) (si_lor si) la (c_opt c) s x row -> yields c x (cdot row k)).
  { intros x row G. eapply matches_yields; eauto. apply BH. }
  clear - P Y. induction P as [|x row l B' G P IH]; cbn [map]; constructor; auto.
Qed.

(** one series of numbers *)
Lemma split_sums (B : list (list C)) k k' : forall x x', length x = length B -> length x' = length B -> length k' = length k ->
  best (sys B x) k -> best (sys B x') k' ->
  let z := map (fun row => cdot row k) B in let z' := map (fun row => cdot row k') B in
  norm2 (csub x' x) = norm2 (csub z' z) + norm2 (csub (csub x' z') (csub x z)).
Proof.
  intros x x' Lx Lx' Lk H H' z z'. set (d := vadd k' k (RtoC (-1))).
  assert (Ld : length d = length k) by (unfold d; rewrite vadd_len; lia).
  assert (O := best_orth _ _ H d Ld). assert (O' := best_orth _ _ H' d ltac:(lia)).
  assert (D : forall row, cdot row d = Cminus (cdot row k') (cdot row k)).
  { intros row. unfold d. rewrite cdot_vadd by lia. unfold Cminus. destruct (cdot row k), (cdot row k'). unfold Cplus, Cmult, Copp, RtoC. cbn. f_equal; ring. }
  assert (X : norm2 (csub x' x) = norm2 (csub z' z) + norm2 (csub (csub x' z') (csub x z))
    + 2 * (ip (resid k) (fun p => cdot (fst p) d) (sys B x) - ip (resid k') (fun p => cdot (fst p) d) (sys B x'))); [|rewrite X, O, O'; ring].
  unfold z, z'. clear - D Lx Lx'. unfold norm2, csub, ip, sys. revert x x' Lx Lx'. induction B as [|row B IH]; intros [|y x] [|y' x'] Lx Lx'; try discriminate.
  - cbn. ring.
  - cbn [map combine]. rewrite !rsum_cons. injection Lx as Lx. injection Lx' as Lx'. rewrite (IH x x' Lx Lx'). cbn [fst snd]. unfold resid. cbn [fst snd].
    rewrite D. destruct (cdot row k), (cdot row k'), y, y'. cbn. ring.
Qed.

Lemma data_split L t u v u' v' lat opts sm sm' c c' : analysis L t u v lat opts sm c -> analysis L t u' v' lat opts sm' c' -> is2d v' = is2d v -> map fst sm' = map fst sm ->
  approximate (c_opt c) = false -> lstsq_minimises L -> o_method (c_opt c) = PStr "ols" ->
  forall L1 L2, exists zs zs', returns L1 c (map fst sm) zs /\ returns L2 c' (map fst sm) zs' /\
  norm2 (csub (map snd sm') (map snd sm)) = norm2 (csub zs' zs) + norm2 (csub (csub (map snd sm') zs') (csub (map snd sm) zs)).
Proof.
  intros AN AN' E2 ES NA LM OLS L1 L2.
  assert (EI := same_infer _ _ _ _ _ _ _ _ _ _ _ _ AN AN' E2).
  destruct (coupled _ _ _ _ _ _ _ _ _ _ _ _ AN AN' ES EI) as (EF & EN & EM & si & si' & la & s & B & m & m' & W & W' & BH & BH' & T1 & T2 & E1 & E3 & X1 & X2).
  assert (HS := an_sorted _ _ _ _ _ _ _ _ AN). assert (NA' : approximate (c_opt c') = false) by (unfold approximate in *; now rewrite EI).
  assert (T2' : si_t si' = map fst sm') by congruence.
  destruct (fitted _ _ _ _ _ _ _ _ _ _ _ _ _ _ BH HS NA LM OLS T1 X1) as (LB & k & Lk & Bk & Y).
  destruct (fitted _ _ _ _ _ _ _ _ _ _ _ _ _ _ BH' HS NA' LM (eq_trans EM OLS) T2' X2) as (LB' & k' & Lk' & Bk' & Y').
  rewrite ES in Y'. exists (map (fun row => cdot row k) B), (map (fun row => cdot row k') B).
  split; [apply returns_yields; [apply BH|exact Y]|]. split; [apply returns_yields; [apply BH'|exact Y']|].
  apply split_sums; auto; [rewrite map_length; lia|rewrite map_length; lia|]. rewrite Lk, Lk'. unfold ncoef. now rewrite EN.
Qed.

Lemma norm2_nonneg l : 0 <= norm2 l.
Proof.
  unfold norm2. apply rsum_pos. intros y Hy. apply in_map_iff in Hy. destruct Hy as (z & <- & _). assert (A := pow2_ge_0 (fst z)). assert (B := pow2_ge_0 (snd z)). lra.
Qed.
Lemma data_contraction L t u v u' v' lat opts sm sm' c c' : analysis L t u v lat opts sm c -> analysis L t u' v' lat opts sm' c' -> is2d v' = is2d v -> map fst sm' = map fst sm ->
  approximate (c_opt c) = false -> lstsq_minimises L -> o_method (c_opt c) = PStr "ols" ->
  forall L1 L2 zs zs', returns L1 c (map fst sm) zs -> returns L2 c' (map fst sm) zs' -> norm2 (csub zs' zs) <= norm2 (csub (map snd sm') (map snd sm)).
Proof.
  intros AN AN' E2 ES NA LM OLS L1 L2 zs zs' R1 R2.
  destruct (data_split _ _ _ _ _ _ _ _ _ _ _ _ AN AN' E2 ES NA LM OLS L1 L2) as (ws & ws' & R1' & R2' & E).
  assert (W := analysis_wf _ _ _ _ _ _ _ _ AN). assert (W' := analysis_wf _ _ _ _ _ _ _ _ AN').
  apply returns_yields in R1, R2, R1', R2'; auto. rewrite (pairs_unique _ _ _ _ R1 R1'), (pairs_unique _ _ _ _ R2 R2').
  assert (G := norm2_nonneg (csub (csub (map snd sm') ws') (csub (map snd sm) ws))). lra.
Qed.

(** ** One sample *)
Lemma norm2_nth l i : (i < length l)%nat -> fst (nth i l (RtoC 0)) ^ 2 + snd (nth i l (RtoC 0)) ^ 2 <= norm2 l.
Proof.
  revert i. induction l as [|z l IH]; intros i Hi; [cbn in Hi; lia|]. unfold norm2. cbn [map]. rewrite rsum_cons. assert (G := norm2_nonneg l). unfold norm2 in G. destruct i as [|i]; cbn [nth].
  - lra.
  - cbn [length] in Hi. assert (K := IH i ltac:(lia)). unfold norm2 in K. assert (A := pow2_ge_0 (fst z)). assert (B := pow2_ge_0 (snd z)). lra.
Qed.
Lemma norm2_nth2 l i j : i <> j -> (i < length l)%nat -> (j < length l)%nat ->
  (fst (nth i l (RtoC 0)) ^ 2 + snd (nth i l (RtoC 0)) ^ 2) + (fst (nth j l (RtoC 0)) ^ 2 + snd (nth j l (RtoC 0)) ^ 2) <= norm2 l.
Proof.
  revert i j. induction l as [|z l IH]; intros i j N Hi Hj; [cbn in Hi; lia|]. cbn [length] in Hi, Hj. unfold norm2. cbn [map]. rewrite rsum_cons.
  assert (A := pow2_ge_0 (fst z)). assert (B := pow2_ge_0 (snd z)).
  destruct i as [|i], j as [|j]; cbn [nth]; [lia| | |].
  - assert (K := norm2_nth l j ltac:(lia)). unfold norm2 in K. lra.
  - assert (K := norm2_nth l i ltac:(lia)). unfold norm2 in K. lra.
  - assert (K := IH i j ltac:(lia) ltac:(lia) ltac:(lia)). unfold norm2 in K. lra.
Qed.
Lemma csub_nth a b i : length b = length a -> nth i (csub a b) (RtoC 0) = Cminus (nth i a (RtoC 0)) (nth i b (RtoC 0)).
Proof.
  unfold csub. revert b i. induction a as [|x a IH]; intros [|y b] i E; try discriminate; cbn [combine map]; [destruct i; cbn; unfold Cminus, Cplus, Copp, RtoC; cbn; f_equal; ring|].
  destruct i; [reflexivity|]. cbn [nth]. apply IH. now injection E.
Qed.
Lemma csub_len a b : length b = length a -> length (csub a b) = length a.
Proof. intros E. unfold csub. rewrite map_length, combine_length. lia. Qed.
(** |x|^2 = |d|^2 + |x - d|^2 with x zero off j *)
Lemma inner_at x d j : length d = length x -> (j < length x)%nat -> (forall i, (i < length x)%nat -> i <> j -> nth i x (RtoC 0) = RtoC 0) ->
  norm2 (csub x d) = norm2 x + norm2 d - 2 * inner (nth j x (RtoC 0)) (nth j d (RtoC 0)).
Proof.
  revert d j. induction x as [|y x IH]; intros [|e d] j E Hj Z; try discriminate; [cbn in Hj; lia|]. injection E as E. cbn [length] in Hj, Z.
  unfold norm2, csub. cbn [combine map]. rewrite !rsum_cons. cbn [fst snd].
  destruct j as [|j]; cbn [nth].
  - assert (Q : forall d, length d = length x -> rsum (map (fun c => fst c ^ 2 + snd c ^ 2) (map (fun p => Cminus (fst p) (snd p)) (combine x d))) =
      rsum (map (fun c => fst c ^ 2 + snd c ^ 2) x) + rsum (map (fun c => fst c ^ 2 + snd c ^ 2) d)).
    { assert (ZZ : forall z, In z x -> z = RtoC 0).
      { intros z Hz. apply (In_nth _ _ (RtoC 0)) in Hz. destruct Hz as (i & Hi & <-). apply (Z (S i)); lia. }
      clear - ZZ. induction x as [|y x IH]; intros [|e d] E; try discriminate; [cbn; ring|]. injection E as E. cbn [combine map]. rewrite !rsum_cons.
      rewrite (IH (fun z Hz => ZZ z (or_intror Hz)) d E). rewrite (ZZ y (or_introl eq_refl)). destruct e. cbn. ring. }
    rewrite (Q d E). unfold inner. destruct y, e. cbn. ring.
  - assert (Y : y = RtoC 0) by (apply (Z 0%nat); lia). assert (K := IH d j E ltac:(lia) (fun i Hi Ni => Z (S i) ltac:(lia) ltac:(lia))). unfold norm2, csub in K. rewrite K.
    subst y. destruct e. cbn. ring.
Qed.
Lemma cmod_sq z : fst z ^ 2 + snd z ^ 2 = Cmod z ^ 2.
Proof. unfold Cmod. rewrite pow2_sqrt; [reflexivity|]. assert (A := pow2_ge_0 (fst z)). assert (B := pow2_ge_0 (snd z)). lra. Qed.
Lemma inner_le a b : inner a b <= Cmod a * Cmod b.
Proof.
  assert (A := Cmod_ge_0 a). assert (B := Cmod_ge_0 b). assert (0 <= Cmod a * Cmod b) by now apply Rmult_le_pos.
  apply Rnot_lt_le. intros N. assert (Q : (Cmod a * Cmod b) ^ 2 < inner a b ^ 2) by (cbn; nra).
  rewrite Rpow_mult_distr, <- !cmod_sq in Q. unfold inner in Q. destruct a as [p q], b as [r s]. cbn in Q. assert (S := pow2_ge_0 (p * s - q * r)). cbn in S. nra.
Qed.

Lemma one_sample L t u v u' v' lat opts sm sm' c c' : analysis L t u v lat opts sm c -> analysis L t u' v' lat opts sm' c' -> is2d v' = is2d v ->
  approximate (c_opt c) = false -> lstsq_minimises L -> o_method (c_opt c) = PStr "ols" ->
  forall j delta, one_changed sm sm' j delta -> forall L1 L2 zs zs', returns L1 c (map fst sm) zs -> returns L2 c' (map fst sm) zs' ->
  let move i := Cminus (nth i zs' (RtoC 0)) (nth i zs (RtoC 0)) in
  Cmod (move j) ^ 2 <= inner (move j) delta <= Cmod delta ^ 2 /\ forall i, (i < length sm)%nat -> i <> j -> Cmod (move i) <= Cmod delta / 2.
Proof.
  intros AN AN' E2 NA LM OLS j delta (ES & Hj & CH) L1 L2 zs zs' R1 R2 move.
  destruct (data_split _ _ _ _ _ _ _ _ _ _ _ _ AN AN' E2 ES NA LM OLS L1 L2) as (ws & ws' & R1' & R2' & E).
  assert (W := analysis_wf _ _ _ _ _ _ _ _ AN). assert (W' := analysis_wf _ _ _ _ _ _ _ _ AN').
  apply returns_yields in R1, R2, R1', R2'; auto. rewrite <- (pairs_unique _ _ _ _ R1 R1'), <- (pairs_unique _ _ _ _ R2 R2') in E. clear ws ws' R1' R2'.
  assert (Lz : length zs = length sm) by (apply Forall2_len in R1; rewrite map_length in R1; congruence).
  assert (Lz' : length zs' = length sm) by (apply Forall2_len in R2; rewrite map_length in R2; congruence).
  assert (Ls : length sm' = length sm) by (apply (f_equal (@length _)) in ES; rewrite !map_length in ES; exact ES).
  set (x := csub (map snd sm') (map snd sm)) in *. set (d := csub zs' zs) in *.
  assert (Lx : length x = length sm) by (unfold x; rewrite csub_len; rewrite !map_length; lia). assert (Ld : length d = length sm) by (unfold d; rewrite csub_len; lia).
  assert (X : forall i, (i < length sm)%nat -> nth i x (RtoC 0) = if Nat.eqb i j then delta else RtoC 0).
  { intros i Hi. unfold x. rewrite csub_nth by (rewrite !map_length; lia). rewrite (CH i Hi). destruct (Nat.eqb i j); [|ring]. ring. }
  assert (EQ : csub (csub (map snd sm') zs') (csub (map snd sm) zs) = csub x d).
  { unfold x, d, csub. clear - Lz Lz' Ls. revert sm sm' zs' Lz Lz' Ls. induction zs as [|z zs IH]; intros [|s sm] [|s' sm'] [|z' zs'] A B D; try discriminate; [reflexivity|].
    cbn [map combine fst snd]. f_equal; [ring|]. apply IH; auto. }
  rewrite EQ, (inner_at x d j) in E; [|lia|lia|]. 2: { intros i Hi N. rewrite X by lia. destruct (Nat.eqb_spec i j); [contradiction|reflexivity]. }
  rewrite (X j Hj), Nat.eqb_refl in E.
  assert (M : forall i, nth i d (RtoC 0) = move i) by (intros i; unfold d, move; apply csub_nth; lia). rewrite M in E.
  assert (I : inner delta (move j) = norm2 d) by lra. assert (Q : inner (move j) delta = norm2 d) by (rewrite <- I; unfold inner; ring).
  assert (B1 := norm2_nth d j ltac:(lia)). rewrite M, cmod_sq in B1. assert (B2 := inner_le (move j) delta).
  assert (P1 := Cmod_ge_0 (move j)). assert (P2 := Cmod_ge_0 delta). assert (LE : Cmod (move j) <= Cmod delta).
  { destruct (Req_dec (Cmod (move j)) 0) as [Z|Z]; [lra|]. apply (Rmult_le_reg_l (Cmod (move j))); [lra|]. rewrite Q in B2. cbn in B1. nra. }
  split; [split; [lra|]|].
  - eapply Rle_trans; [exact B2|]. cbn. nra.
  - intros i Hi N. assert (B3 := norm2_nth2 d i j N ltac:(lia) ltac:(lia)). rewrite !M, !cmod_sq in B3. assert (P3 := Cmod_ge_0 (move i)).
    rewrite Q in B2. assert (S := pow2_ge_0 (Cmod (move j) - Cmod delta / 2)).
    apply Rnot_lt_le. intros K. assert ((Cmod delta / 2) ^ 2 < Cmod (move i) ^ 2) by (cbn; nra). cbn in *. nra.
Qed.
