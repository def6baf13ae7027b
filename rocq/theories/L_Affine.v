(** Intervals of ordinary least squares when the data are scaled and a constant and a trend are added. *)
From Coq Require Import Lia Lra Permutation.
From Coquelicot Require Import Coquelicot.
From Verif Require Import M_Base M_Lib M_Options M_Time M_Slvinit M_Select M_Ellipse M_Conf M_Diag M_Solve M_Recon S_Dict S_Options S_Order S_Basis S_Fit S_Ellipse S_Recon S_Model S_Conf S_Errors S_RobustErr
  L_Base L_Options L_SolveInv L_OptSolve L_Slv L_Slv2 L_Select L_Fit L_Angle L_Ellipse L_Ellipse2 L_Core L_Lsq L_Model L_Model2 L_Model3 L_Model4 L_Model5 L_Model6 L_Model7 L_Model8 L_Model9 L_Model10 L_Model11 L_Model12 L_Model15 L_Conf L_Conf2 L_Conf3 L_Conf4 L_Errors3 L_Errors5 L_Errors6.
Open Scope R_scope.
Open Scope string_scope.

(** ** Extended reals times a positive number *)
Definition xs (k : R) (x : xr) : xr := match x with Fin a => Fin (k * a) | y => y end.
Lemma sgn_pos k a : 0 < k -> sgn_inf (k * a) = sgn_inf a.
Proof.
  intros K. unfold sgn_inf. destruct (Rlt_dec 0 (k * a)), (Rlt_dec 0 a), (Rlt_dec (k * a) 0), (Rlt_dec a 0); auto; exfalso; nra.
Qed.
Lemma xs_xmul k x : 0 < k -> xmul (Fin k) x = xs k x.
Proof.
  intros K. destruct x; cbn; auto; unfold sgn_inf; destruct (Rlt_dec 0 k), (Rlt_dec 0 (- k)), (Rlt_dec (- k) 0); auto; exfalso; lra.
Qed.
Lemma xs_add k x y : 0 < k -> xadd (xs k x) (xs k y) = xs k (xadd x y).
Proof. intros K. destruct x, y; cbn; auto. f_equal. ring. Qed.
Lemma xs_mul_l k x y : 0 < k -> xmul (xs k x) y = xs k (xmul x y).
Proof.
  intros K. destruct x, y; cbn; auto; try (f_equal; ring); try (rewrite ?Ropp_mult_distr_r, sgn_pos by auto);
  unfold sgn_inf; repeat match goal with |- context [Rlt_dec ?a ?b] => destruct (Rlt_dec a b) end; auto.
Qed.
Lemma xs_mul_r k x y : 0 < k -> xmul x (xs k y) = xs k (xmul x y).
Proof.
  intros K. destruct x, y; cbn; auto; try (f_equal; ring); try (rewrite ?Ropp_mult_distr_r, sgn_pos by auto);
  unfold sgn_inf; repeat match goal with |- context [Rlt_dec ?a ?b] => destruct (Rlt_dec a b) end; auto.
Qed.
Lemma xs_xs k h x : xs k (xs h x) = xs (k * h) x.
Proof. destruct x; cbn; auto. f_equal. ring. Qed.
Lemma xs_1 x : xs 1 x = x.
Proof. destruct x; cbn; auto. f_equal. ring. Qed.
Lemma xs_sqrt k x : 0 < k -> xsqrt (xs (k * k) x) = xs k (xsqrt x).
Proof.
  intros K. assert (0 < k * k) by nra. destruct x as [a| | |]; cbn; auto. destruct (Rlt_dec a 0) as [H0|H0].
  - destruct (Rlt_dec (k * k * a) 0) as [|N]; [reflexivity|]. exfalso. apply N. nra.
  - apply Rnot_lt_le in H0. destruct (Rlt_dec (k * k * a) 0) as [N|_]; [exfalso; nra|]. cbn. f_equal.
    rewrite sqrt_mult by lra. rewrite sqrt_square by lra. reflexivity.
Qed.
(** factors times errors: only the product matters *)
Lemma x4_scale h k f1 f2 f3 f4 s1 s2 s3 s4 : 0 < h -> 0 < k ->
  x4 (xs h f1, xs h f2, xs h f3, xs h f4) (xs k s1, xs k s2, xs k s3, xs k s4) = xs (h * k) (x4 (f1, f2, f3, f4) (s1, s2, s3, s4)).
Proof.
  intros H K. unfold x4, xsq.
  assert (E : forall f s, xmul (xmul (xs h f) (xs h f)) (xmul (xs k s) (xs k s)) = xs ((h * k) * (h * k)) (xmul (xmul f f) (xmul s s))).
  { assert (SQ : forall a z, 0 < a -> xmul (xs a z) (xs a z) = xs (a * a) (xmul z z)) by (intros; now rewrite xs_mul_l, xs_mul_r, xs_xs).
    intros. rewrite !SQ, xs_mul_l, xs_mul_r, xs_xs by nra. f_equal. ring. }
  assert (0 < h * k) by nra. assert (0 < (h * k) * (h * k)) by nra.
  rewrite !E, !xs_add by auto. apply xs_sqrt. auto.
Qed.
Lemma xdiv_scale a b k h : 0 < k -> 0 < h -> xdiv (Fin (k * a)) (Fin (h * b)) = xs (k / h) (xdiv (Fin a) (Fin b)).
Proof.
  intros K H. cbn. destruct (Req_EM_T b 0) as [->|N].
  - destruct (Req_EM_T (h * 0) 0) as [_|N]; [|exfalso; apply N; ring]. rewrite sgn_pos by auto.
    unfold sgn_inf. destruct (Rlt_dec 0 a); auto. destruct (Rlt_dec a 0); auto.
  - destruct (Req_EM_T (h * b) 0) as [E|_]; [exfalso; nra|]. cbn. f_equal. field. lra.
Qed.
Lemma xs_complex k a b : xcomplex (xs k a) (xs k b) = (xs k (fst (xcomplex a b)), xs k (snd (xcomplex a b))).
Proof. unfold xcomplex. destruct b; reflexivity. Qed.

(** ** Homogeneity of the linearised errors *)
Definition xs2 (k : R) (p : xr * xr) : xr * xr := (xs k (fst p), xs k (snd p)).
Lemma linci_homog k Xu Yu Xv Yv s1 s2 s3 s4 : 0 < k ->
  ut_linci (k * Xu) (k * Yu) (k * Xv) (k * Yv) (xs k s1) (xs k s2) (xs k s3) (xs k s4) =
  (xs2 k (fst (ut_linci Xu Yu Xv Yv s1 s2 s3 s4)), snd (ut_linci Xu Yu Xv Yv s1 s2 s3 s4)).
Proof.
  intros K. unfold ut_linci. cbv zeta.
  assert (Q : forall a b, / 2 * sqrt (Rsqr (k * a) + Rsqr (k * b)) = k * (/ 2 * sqrt (Rsqr a + Rsqr b))).
  { intros. unfold Rsqr. replace (k * a * (k * a) + k * b * (k * b)) with (k * k * (a * a + b * b)) by ring.
    rewrite sqrt_mult by nra. rewrite sqrt_square by lra. ring. }
  rewrite <- !Rmult_plus_distr_l, <- !Rmult_minus_distr_l, !Q.
  rewrite !(xdiv_scale _ _ k k K K). replace (k / k) with 1 by (field; lra). rewrite !xs_1.
  assert (D : forall a b c d, Rsqr (2 * (k * a * (k * b) + k * c * (k * d))) = k ^ 4 * Rsqr (2 * (a * b + c * d))) by (intros; unfold Rsqr; ring).
  assert (N1 : forall f1 f2 f3 f4, x4 (f1, f2, f3, f4) (xs k s1, xs k s2, xs k s3, xs k s4) = xs k (x4 (f1, f2, f3, f4) (s1, s2, s3, s4))).
  { intros. rewrite <- (xs_1 f1), <- (xs_1 f2), <- (xs_1 f3), <- (xs_1 f4) at 1. rewrite x4_scale by lra. now rewrite Rmult_1_l. }
  assert (K3 : 0 < k ^ 3) by (apply pow_lt; auto). assert (K4 : 0 < k ^ 4) by (apply pow_lt; auto).
  assert (N2 : forall a1 a2 a3 a4 n, xmul M_Conf.deg (x4 (xdiv (Fin (k ^ 3 * a1)) (Fin (k ^ 4 * n)), xdiv (Fin (k ^ 3 * a2)) (Fin (k ^ 4 * n)), xdiv (Fin (k ^ 3 * a3)) (Fin (k ^ 4 * n)), xdiv (Fin (k ^ 3 * a4)) (Fin (k ^ 4 * n))) (xs k s1, xs k s2, xs k s3, xs k s4)) =
      xmul M_Conf.deg (x4 (xdiv (Fin a1) (Fin n), xdiv (Fin a2) (Fin n), xdiv (Fin a3) (Fin n), xdiv (Fin a4) (Fin n)) (s1, s2, s3, s4))).
  { intros. rewrite !(xdiv_scale _ _ (k ^ 3) (k ^ 4) K3 K4). replace (k ^ 3 / k ^ 4) with (/ k) by (field; lra).
    rewrite x4_scale by (auto; now apply Rinv_0_lt_compat). rewrite Rinv_l by lra. now rewrite xs_1. }
  assert (E2 : forall n1 n2 n3 n4 d a1 a2 a3 a4 e, n1 = k ^ 3 * a1 -> n2 = k ^ 3 * a2 -> n3 = k ^ 3 * a3 -> n4 = k ^ 3 * a4 -> d = k ^ 4 * e ->
      xmul M_Conf.deg (x4 (xdiv (Fin n1) (Fin d), xdiv (Fin n2) (Fin d), xdiv (Fin n3) (Fin d), xdiv (Fin n4) (Fin d)) (xs k s1, xs k s2, xs k s3, xs k s4)) =
      xmul M_Conf.deg (x4 (xdiv (Fin a1) (Fin e), xdiv (Fin a2) (Fin e), xdiv (Fin a3) (Fin e), xdiv (Fin a4) (Fin e)) (s1, s2, s3, s4)))
    by (intros * -> -> -> -> ->; apply N2).
  set (rn := 2 * (Xu * Yu + Xv * Yv)). set (rd := Xu² - Yu² + Xv² - Yv²).
  set (rn' := 2 * (Xu * Xv + Yu * Yv)). set (rd' := Xu² + Yu² - (Xv² + Yv²)).
  rewrite (E2 _ _ _ _ _ (rd * Yu - rn * Xu) (rd * Xu + rn * Yu) (rd * Yv - rn * Xv) (rd * Xv + rn * Yv) (rn² + rd²)) by (unfold rn, rd, Rsqr; ring).
  rewrite (E2 _ _ _ _ _ (rd' * Xv - rn' * Xu) (rd' * Yv - rn' * Yu) (rd' * Xu + rn' * Xv) (rd' * Yu + rn' * Yv) (rn'² + rd'²)) by (unfold rn', rd', Rsqr; ring).
  rewrite !N1.
  destruct (Req_EM_T (k * Xv) 0) as [Z|Z], (Req_EM_T Xv 0) as [Z'|Z'].
  - unfold xs2. cbn [fst snd xs]. rewrite Rmult_0_r. reflexivity.
  - exfalso. apply Z'. apply Rmult_integral in Z. destruct Z; lra.
  - exfalso. apply Z. rewrite Z'. ring.
  - cbn [fst snd]. rewrite xs_complex. unfold xs2. reflexivity.
Qed.

Lemma xdiv_xs a b x y : 0 < a -> 0 < b -> xdiv (xs a x) (xs b y) = xs (a / b) (xdiv x y).
Proof.
  intros A B. destruct x as [x| | |], y as [y| | |]; try reflexivity; [now apply xdiv_scale|cbn..].
  - f_equal. ring.
  - f_equal. ring.
  - destruct (Rle_dec 0 (b * y)), (Rle_dec 0 y); auto; exfalso; nra.
  - destruct (Rle_dec 0 (b * y)), (Rle_dec 0 y); auto; exfalso; nra.
Qed.
Definition ci_scaled (k : R) (w w' : ci) : Prop :=
  ci_maj w' = xs k (ci_maj w) /\ ci_min w' = xs k (ci_min w) /\ ci_theta w' = ci_theta w /\ ci_g w' = ci_g w.
Lemma share k P v d : 0 < k -> xdiv (xmul (xs (k * k) P) (xs (k * k) v)) (xs (k * k) d) = xs (k * k) (xdiv (xmul P v) d).
Proof.
  intros K. assert (0 < k * k) by nra. rewrite xs_mul_l, xs_mul_r, xs_xs, xdiv_xs by nra. f_equal. field. nra.
Qed.
Lemma linear1_homog k X Y vX vY P : 0 < k ->
  ci_scaled k (linear1 X Y vX vY P) (linear1 (k * X) (k * Y) (xs (k * k) vX) (xs (k * k) vY) (option_map (xs (k * k)) P)).
Proof.
  intros K. assert (K2 : 0 < k * k) by nra. unfold linear1.
  assert (G : forall a b, ci_scaled k
    (let '((s1, _), (s2, _)) := ut_linci X Y 0 0 (xsqrt a) (xsqrt b) (Fin 0) (Fin 0) in
     {| ci_maj := xmul z196 s1; ci_min := NaN; ci_theta := NaN; ci_g := xmul z196 s2; ci_vc := [a; b] |})
    (let '((s1, _), (s2, _)) := ut_linci (k * X) (k * Y) 0 0 (xsqrt (xs (k * k) a)) (xsqrt (xs (k * k) b)) (Fin 0) (Fin 0) in
     {| ci_maj := xmul z196 s1; ci_min := NaN; ci_theta := NaN; ci_g := xmul z196 s2; ci_vc := [xs (k * k) a; xs (k * k) b] |})).
  { intros a b. rewrite !xs_sqrt by auto. assert (H := linci_homog k X Y 0 0 (xsqrt a) (xsqrt b) (Fin 0) (Fin 0) K).
    rewrite Rmult_0_r in H. cbn [xs] in H. rewrite Rmult_0_r in H. rewrite H.
    destruct (ut_linci X Y 0 0 (xsqrt a) (xsqrt b) (Fin 0) (Fin 0)) as [[s1 s1i] [s2 s2i]]. unfold xs2, ci_scaled. cbn [fst snd ci_maj ci_min ci_theta ci_g].
    rewrite xs_mul_r by auto. auto. }
  destruct P as [P|]; cbn [option_map]; [|apply G]. rewrite xs_add, !share by auto. apply G.
Qed.
Lemma linear2_homog k Xu Yu Xv Yv a b d e P : 0 < k ->
  ci_scaled k (linear2 Xu Yu Xv Yv a b d e P)
    (linear2 (k * Xu) (k * Yu) (k * Xv) (k * Yv) (xs (k * k) a) (xs (k * k) b) (xs (k * k) d) (xs (k * k) e) (option_map (xs (k * k)) P)).
Proof.
  intros K. assert (K2 : 0 < k * k) by nra. unfold linear2.
  assert (G : forall wx wy, ci_scaled k
    (let '(sXu, sXv) := csig a wx in let '(sYu, sYv) := csig b wy in
     let '((s1, s1i), (s2, s2i)) := ut_linci Xu Yu Xv Yv sXu sYu sXv sYv in
     {| ci_maj := xmul z196 s1; ci_min := xmul z196 s1i; ci_theta := xmul z196 s2i; ci_g := xmul z196 s2; ci_vc := [a; b; wx; wy] |})
    (let '(sXu, sXv) := csig (xs (k * k) a) (xs (k * k) wx) in let '(sYu, sYv) := csig (xs (k * k) b) (xs (k * k) wy) in
     let '((s1, s1i), (s2, s2i)) := ut_linci (k * Xu) (k * Yu) (k * Xv) (k * Yv) sXu sYu sXv sYv in
     {| ci_maj := xmul z196 s1; ci_min := xmul z196 s1i; ci_theta := xmul z196 s2i; ci_g := xmul z196 s2;
        ci_vc := [xs (k * k) a; xs (k * k) b; xs (k * k) wx; xs (k * k) wy] |})).
  { intros wx wy. unfold csig. rewrite !xs_sqrt, !xs_complex by auto. destruct (xcomplex (xsqrt a) (xsqrt wx)) as [p1 p2], (xcomplex (xsqrt b) (xsqrt wy)) as [q1 q2].
    cbn [fst snd]. rewrite linci_homog by auto. destruct (ut_linci Xu Yu Xv Yv p1 q1 p2 q2) as [[s1 s1i] [s2 s2i]]. unfold xs2, ci_scaled.
    cbn [fst snd ci_maj ci_min ci_theta ci_g]. rewrite !xs_mul_r by auto. auto. }
  destruct P as [P|]; cbn [option_map]; [|apply G]. rewrite xs_add, !share by auto. apply G.
Qed.

Lemma F2_left {A B} (P : A -> B -> Prop) l l' x : Forall2 P l l' -> In x l -> exists y, In y l' /\ P x y.
Proof. induction 1 as [|a b l m H F IH]; [intros []|]. intros [->|I]; [exists b; cbn; auto|]. destruct (IH I) as (y & H1 & H2). exists y. cbn; auto. Qed.

(** ** The two analyses *)
Section Two.
Variables (L : lib) (t : pyarr tarray) (u u' : pyarr (list xr)) (v v' : option (pyarr (list xr))) (lat : option R) (opts : dict pyval).
Variables (sm : list (R * C)) (c c' : coef) (k : R) (be ga : C).
Notation sm' := (map (fun x => (fst x, Cplus (Cplus (Cmult (RtoC k) (snd x)) be) (Cmult (RtoC (fst x - c_reftime c)) ga))) sm).
Hypothesis AN : analysis L t u v lat opts sm c.
Hypothesis AN' : analysis L t u' v' lat opts sm' c'.
Hypothesis D2 : is2d v = is2d v'.
Hypothesis NA : approximate (c_opt c) = false.
Hypothesis LM : lstsq_minimises L.
Hypothesis OLS : o_method (c_opt c) = PStr "ols".
Hypothesis ID : identifiable c (map fst sm).
Hypothesis ND : NoDup (c_name c).
Hypothesis Hga : o_notrend (c_opt c) = true -> ga = RtoC 0.

Lemma two : c_opt c' = c_opt c /\ c_reftime c' = c_reftime c /\ c_lat c' = c_lat c /\ Permutation (c_lind c') (c_lind c) /\ Permutation (c_name c') (c_name c).
Proof.
  destruct (top_affine _ _ _ _ _ _ _ _ _ _ _ _ _ _ AN AN' D2 NA LM OLS ID ND (fun _ => eq_refl) Hga) as (E1 & E2 & P & _ & _ & W & W').
  split; [exact E1|]. split; [exact E2|].
  destruct (analysis_run _ _ _ _ _ _ _ _ AN) as (_ & si & la & s & B & xraw & m & WW & BH & _).
  destruct (analysis_run _ _ _ _ _ _ _ _ AN') as (_ & si' & la' & s' & B' & xraw' & m' & WW' & BH' & _).
  split.
  { rewrite (bh_la _ _ _ _ _ _ _ _ _ _ _ _ _ _ BH), (bh_la _ _ _ _ _ _ _ _ _ _ _ _ _ _ BH').
    assert (X := bh_lat _ _ _ _ _ _ _ _ _ _ _ _ _ _ BH). assert (X' := bh_lat _ _ _ _ _ _ _ _ _ _ _ _ _ _ BH'). congruence. }
  assert (G : forall k0, well_formed k0 -> map (fun x => snd (fst x)) (triples k0) = c_lind k0).
  { intros k0 W0. rewrite <- (map_map fst snd), triples_fst by assumption. apply combine_snd.
    assert (A := wf_aligned _ W0). destruct A as (_ & A & _). now rewrite A. }
  split; [rewrite <- !G by assumption|rewrite <- !triples_names by assumption].
  - rewrite P, map_map. reflexivity.
  - rewrite P, map_map. reflexivity.
Qed.

Lemma sample_waves x : In x (map fst sm) -> exists es, map (e_of c x) (c_lind c) = map Some es.
Proof.
  destruct (analysis_run _ _ _ _ _ _ _ _ AN) as (_ & si & la & s & B & xraw & m & WW & BH & S1 & S2 & S3).
  intros Hx. rewrite <- S1 in Hx. assert (G := good_rows _ _ _ _ _ _ _ _ _ _ _ _ _ _ BH).
  destruct (F2_left _ _ _ _ G Hx) as (row & Hrow & Gx).
  assert (Lm := bh_len _ _ _ _ _ _ _ _ _ _ _ _ _ _ BH).
  destruct (run_row _ _ _ _ _ _ _ _ _ _ _ _ _ _ BH NA x row m Gx Lm) as (es & R1 & _).
  assert (SL := run_lens _ _ _ _ _ _ _ _ _ _ _ _ _ _ BH).
  eapply perm_finite; [|exact R1].
  assert (P := triples_lind _ _ _ (bh_wf _ _ _ _ _ _ _ _ _ _ _ _ _ _ BH) (bh_tri _ _ _ _ _ _ _ _ _ _ _ _ _ _ BH (an_sorted _ _ _ _ _ _ _ _ AN))
      ltac:(rewrite map_length, (bh_pm _ _ _ _ _ _ _ _ _ _ _ _ _ _ BH), combine_length, (ln_lind _ SL); lia)).
  rewrite combine_snd in P by now rewrite (ln_lind _ SL). exact P.
Qed.

Lemma two_yields x y r : In (x, y) sm -> yields c x (Cminus y r) ->
  yields c' x (Cminus (Cplus (Cplus (Cmult (RtoC k) y) be) (Cmult (RtoC (x - c_reftime c)) ga)) (Cmult (RtoC k) r)).
Proof.
  intros Hx Y.
  destruct (top_affine _ _ _ _ _ _ _ _ _ _ _ _ _ _ AN AN' D2 NA LM OLS ID ND (fun _ => eq_refl) Hga) as (E1 & E2 & P & Em & Es & W & W').
  destruct two as (_ & _ & E3 & _ & _).
  destruct (sample_waves x) as (es & He); [apply in_map_iff; exists (x, y); auto|].
  assert (He' : map (e_of c' x) (c_lind c) = map Some es).
  { rewrite <- He. apply map_ext. intros i. unfold e_of. now rewrite E1, E2, E3. }
  set (N := map (fun pq => (Cmult (RtoC k) (fst pq), Cmult (RtoC k) (snd pq))) (pms c)).
  assert (A := wf_aligned _ W). destruct A as (_ & A & _).
  assert (P' : Permutation (triples c') (combine (combine (c_name c) (c_lind c)) N)).
  { rewrite P. apply Permutation_refl'. unfold triples, N. generalize (combine (c_name c) (c_lind c)) (pms c). clear.
    induction l as [|a l IH]; intros [|b q]; cbn [map combine]; auto. f_equal. apply IH. }
  assert (LN : length N = length (c_lind c)) by (unfold N, pms; now rewrite !map_length, seq_length).
  assert (R1 := recon_natural c' x es _ _ N W' P' (eq_sym A) LN He'). assert (R0 := recon_vals c x es W He). cbv zeta in R0, R1.
  unfold N in R1. rewrite hsum_scal in R1.
  assert (YZ : yields c x (Cplus (hsum es (pms c)) (bgC c x))).
  { destruct R0 as (Q1 & Q2 & Q3). split; [exact Q1|]. destruct (o_twodim (c_opt c)); auto. }
  assert (EZ := yields_unique _ _ _ _ Y YZ).
  assert (S3 : o_twodim (c_opt c) = false -> snd y = 0 /\ snd (Cplus (Cplus (Cmult (RtoC k) y) be) (Cmult (RtoC (x - c_reftime c)) ga)) = 0).
  { intros T. destruct (analysis_run _ _ _ _ _ _ _ _ AN) as (_ & si & la & s & B & xraw & m & WW & BH & _ & _ & S3).
    destruct (analysis_run _ _ _ _ _ _ _ _ AN') as (_ & si' & la' & s' & B' & xraw' & m' & WW' & BH' & _ & _ & S3').
    split; [exact (S3 T _ Hx)|]. rewrite E1 in S3'.
    refine (S3' T (x, Cplus (Cplus (Cmult (RtoC k) y) be) (Cmult (RtoC (x - c_reftime c)) ga)) _).
    apply in_map_iff. exists (x, y). auto. }
  rewrite E1 in R1. destruct R1 as (Q1 & Q2 & _). unfold yields. rewrite E1.
  unfold bgC in *. rewrite E1, E2, Em in Q1, Q2. destruct (o_twodim (c_opt c)) eqn:T; cbn [vis1] in *.
  - assert (Z : Cminus (Cplus (Cplus (Cmult (RtoC k) y) be) (Cmult (RtoC (x - c_reftime c)) ga)) (Cmult (RtoC k) r) =
      Cplus (Cmult (RtoC k) (hsum es (pms c)))
        (Cplus (Cplus (Cmult (RtoC k) (mnC c)) be) (if o_notrend (c_opt c) then RtoC 0 else Cmult (RtoC (x - c_reftime c)) (slC c')))).
    { transitivity (Cplus (Cplus (Cmult (RtoC k) (Cminus y r)) be) (Cmult (RtoC (x - c_reftime c)) ga)); [ring|]. rewrite EZ.
      destruct (o_notrend (c_opt c)) eqn:NT; [rewrite (Hga eq_refl); ring|]. rewrite (Es eq_refl). ring. }
    rewrite Z. split; [exact Q1|]. now apply Q2.
  - destruct (S3 eq_refl) as (Y0 & Y1). destruct Y as (_ & Y). rewrite T in Y.
    assert (R0' : snd r = 0) by (destruct y, r; cbn in *; lra). split.
    + rewrite Q1. f_equal. apply (f_equal fst) in EZ.
      transitivity (k * fst (Cminus y r) + fst be + (x - c_reftime c) * fst ga); [|destruct y, r, be, ga; cbn in *; ring].
      rewrite EZ. destruct (o_notrend (c_opt c)) eqn:NT.
      * rewrite (Hga eq_refl). destruct (hsum es (pms c)), (mnC c), be. cbn. ring.
      * rewrite (Es eq_refl). destruct (hsum es (pms c)), (mnC c), (slC c), be, ga. cbn. ring.
    + destruct r. cbn in *. subst. destruct y, be, ga. cbn in *. lra.
Qed.
Lemma two_residuals rs : residuals c sm rs -> residuals c' sm' (map (Cmult (RtoC k)) rs).
Proof.
  unfold residuals. intros H.
  assert (G : forall l, (forall x, In x l -> In x sm) -> forall rs, Forall2 (fun s r => yields c (fst s) (Cminus (snd s) r)) l rs ->
     Forall2 (fun s r => yields c' (fst s) (Cminus (snd s) r))
      (map (fun x => (fst x, Cplus (Cplus (Cmult (RtoC k) (snd x)) be) (Cmult (RtoC (fst x - c_reftime c)) ga))) l) (map (Cmult (RtoC k)) rs)).
  { induction 2 as [|x r l l' Hr F IH]; cbn [map]; constructor; [|apply IH; intros; apply H0; now right].
    cbn [fst snd]. apply two_yields; [destruct x; apply H0; now left|exact Hr]. }
  apply G; auto.
Qed.

Lemma two_noise part q : (forall z, part (Cmult (RtoC k) z) = k * part z) -> noise_variance part c sm q -> noise_variance part c' sm' (k * k * q).
Proof.
  intros HP (rs & Hr & ->). exists (map (Cmult (RtoC k)) rs). split; [now apply two_residuals|].
  destruct two as (E1 & _ & _ & _ & Pn). rewrite map_length. unfold params. rewrite E1, (Permutation_length Pn).
  rewrite map_map. replace (rsum (map (fun x => part (Cmult (RtoC k) x) ^ 2) rs)) with (k * k * rsum (map (fun r => part r ^ 2) rs)).
  - unfold Rdiv. ring.
  - clear - HP. induction rs as [|r rs IH]; cbn [map]; [unfold rsum; cbn; ring|]. rewrite !rsum_cons, <- IH, HP. ring.
Qed.

Lemma two_wsum w f : wsum w sm' f = wsum w sm f.
Proof.
  unfold wsum. clear. generalize (c_reftime c). intros r0. revert w. induction sm as [|x l IH]; intros [|a w]; cbn [map combine]; auto. rewrite !rsum_cons, IH. reflexivity.
Qed.
Lemma two_unbiased i b w : unbiased c sm i b w <-> unbiased c' sm' i b w.
Proof.
  destruct two as (E1 & E2 & E3 & PL & _). unfold unbiased. rewrite map_length, E1, E2, !two_wsum.
  assert (Wc : forall j, wave_cos c' j = wave_cos c j) by (intros; unfold wave_cos; now rewrite E1, E2, E3).
  assert (Ws : forall j, wave_sin c' j = wave_sin c j) by (intros; unfold wave_sin; now rewrite E1, E2, E3).
  split; intros (H1 & H2 & H3 & H4); (split; [exact H1|]; split; [|split; [exact H3|exact H4]]); intros j Hj.
  - rewrite Wc, Ws, !two_wsum. apply H2. eapply Permutation_in; eauto.
  - rewrite <- Wc, <- Ws, <- (two_wsum w (wave_cos c' j)), <- (two_wsum w (wave_sin c' j)). apply H2. eapply Permutation_in; [apply Permutation_sym|]; eauto.
Qed.
Lemma two_best i b w : best_unbiased c sm i b w -> best_unbiased c' sm' i b w.
Proof. intros [H1 H2]. split; [now apply two_unbiased|]. intros w' H. apply H2. now apply two_unbiased. Qed.
Lemma two_estimate part i b w : (forall z, part (Cmult (RtoC k) z) = k * part z) -> (forall x y, part (Cplus x y) = part x + part y) ->
  (forall x z, part (Cmult (RtoC x) z) = x * part z) ->
  unbiased c sm i b w -> estimate part w sm' = k * estimate part w sm.
Proof.
  intros P1 P2 P3 (H1 & _ & H3 & H4).
  assert (E : estimate part w sm' = k * estimate part w sm + part be * wsum w sm (fun _ => 1) + part ga * wsum w sm (fun x => x - c_reftime c)).
  { unfold estimate, wsum. clear - P1 P2 P3. generalize (c_reftime c). intros r0. revert w. induction sm as [|x l IH]; intros [|a w]; cbn [map combine]; try (unfold rsum; cbn; ring).
    rewrite !rsum_cons, IH. cbn [fst snd]. rewrite !P2, P1, P3. ring. }
  rewrite E, H3. destruct (o_notrend (c_opt c)) eqn:NT; [|rewrite (H4 eq_refl); ring].
  rewrite (Hga eq_refl). replace (part (RtoC 0)) with 0; [ring|]. symmetry. transitivity (part (Cmult (RtoC 0) (RtoC 0))); [f_equal; ring|]. rewrite P3. ring.
Qed.

End Two.
