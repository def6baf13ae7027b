(** Intervals of inferred constituents of a whole analysis. *)
From Coq Require Import Lia Lra Permutation.
From Coquelicot Require Import Coquelicot.
From Verif Require Import M_Base M_Lib M_Options M_Time M_Slvinit M_Select M_Ellipse M_Robust M_Period M_Conf M_Diag M_Solve M_Recon S_Dict S_Options S_Order S_Basis S_Select S_Fit S_Ellipse S_Slv S_Recon S_Model S_Conf S_Inferred
  L_Base L_Options L_SolveInv L_OptSolve L_Slv L_Slv2 L_Order L_Select L_Fit L_Align L_SelOrder L_Basis L_Angle L_Ellipse L_Recon L_Recon2 L_Recon3 L_Core L_Ellipse2 L_Model L_Lsq L_Model2 L_Model3 L_Model4 L_Model5 L_Model6 L_Model7 L_Model8 L_Model9 L_Model10 L_Model11
  L_Conf L_Conf2 L_Conf3 L_Conf4 L_Errors5 L_Errors6.
Open Scope R_scope.
Open Scope string_scope.
Lemma Some_eq {A} (a b : A) : Some a = Some b -> a = b. Proof. congruence. Qed.

(** ** One inferred constituent *)
Definition one_inferred (tw : bool) (x : cs) (vc : list xr) (r : C * C) : ci :=
  hd {| ci_maj := NaN; ci_min := NaN; ci_theta := NaN; ci_g := NaN; ci_vc := [] |}
    (conf_inferred tw {| r_name := ""; r_lind := 0; r_frq := 0; r_Rp := [fst r]; r_Rm := [snd r]; r_Iname := []; r_Ilind := []; r_Ifrq := [] |}
       (x_Xu x) (x_Yu x) (x_Xv x) (x_Yv x) vc).
Lemma conf_inferred_map tw ref x vc :
  conf_inferred tw ref (x_Xu x) (x_Yu x) (x_Xv x) (x_Yv x) vc = map (one_inferred tw x vc) (combine (r_Rp ref) (r_Rm ref)).
Proof. unfold conf_inferred, one_inferred. cbn [r_Rp r_Rm combine]. apply map_ext. intros [rp rm]. reflexivity. Qed.

Lemma combine3_nth {A B D} (a : list A) (b : list B) (d : list D) x y z : length a = length b -> length b = length d ->
  In (x, y, z) (combine (combine a b) d) -> exists l, nth_error a l = Some x /\ nth_error (combine b d) l = Some (y, z).
Proof.
  revert b d. induction a as [|a0 a IH]; intros [|b0 b] [|d0 d] E1 E2 H; try discriminate; try destruct H.
  - injection H as -> -> ->. exists 0%nat. auto.
  - destruct (IH b d) as (l & L1 & L2); auto. exists (S l). auto.
Qed.

(** where the intervals of the request (i, r, rp, rm) stand *)
Lemma inferred_at tw i r rp rm : forall (Rs : list refstruct) (refs : list (cs * ci)), length refs = length Rs ->
  (forall q, In q Rs -> length (r_Rp q) = length (r_Iname q) /\ length (r_Rm q) = length (r_Iname q)) ->
  In (i, r, rp, rm) (flat_map stored Rs) ->
  exists k x cc n, nth_error (map r_name Rs) k = Some r /\ nth_error refs k = Some (x, cc) /\
    nth_error (flat_map r_Iname Rs) n = Some i /\
    nth_error (List.concat (map (fun q => let '(ref, (x, cc)) := q in conf_inferred tw ref (x_Xu x) (x_Yu x) (x_Xv x) (x_Yv x) (ci_vc cc)) (combine Rs refs))) n
      = Some (one_inferred tw x (ci_vc cc) (rp, rm)).
Proof.
  induction Rs as [|q Rs IH]; intros [|[x cc] refs] E HI H; try discriminate; [destruct H|].
  destruct (HI q (or_introl eq_refl)) as [E1 E2].
  cbn [flat_map combine map List.concat] in *. rewrite conf_inferred_map.
  apply in_app_or in H. destruct H as [H|H].
  - unfold stored in H. apply in_map_iff in H. destruct H as ([[n0 p0] m0] & EQ & H). cbn [fst snd] in EQ. injection EQ as -> <- -> ->.
    apply combine3_nth in H; [|lia|lia]. destruct H as (l & L1 & L2).
    exists 0%nat, x, cc, l. split; [reflexivity|]. split; [reflexivity|]. split.
    + rewrite nth_error_app1; [exact L1|]. apply nth_error_Some. congruence.
    + assert (K : nth_error (map (one_inferred tw x (ci_vc cc)) (combine (r_Rp q) (r_Rm q))) l = Some (one_inferred tw x (ci_vc cc) (rp, rm))) by (now rewrite nth_error_map, L2).
      rewrite nth_error_app1; [exact K|]. apply nth_error_Some. congruence.
  - destruct (IH refs) as (k & x' & cc' & n & H1 & H2 & H3 & H4); auto.
    { intros q' Hq'. apply HI. now right. }
    exists (S k), x', cc', (length (r_Iname q) + n)%nat. split; [exact H1|]. split; [exact H2|]. split.
    + rewrite nth_error_app2 by lia. replace (length (r_Iname q) + n - length (r_Iname q))%nat with n by lia. exact H3.
    + rewrite nth_error_app2 by (rewrite map_length, combine_length; lia). rewrite map_length, combine_length.
      replace (length (r_Iname q) + n - Nat.min (length (r_Rp q)) (length (r_Rm q)))%nat with n by lia. exact H4.
Qed.

Lemma nodup_pos {A} (l : list A) i j x : NoDup l -> nth_error l i = Some x -> nth_error l j = Some x -> i = j.
Proof.
  intros N H1 H2. apply (proj1 (NoDup_nth_error l) N); [apply nth_error_Some; congruence|congruence].
Qed.

Lemma nth_skipn {A} k : forall n (l : list A), nth_error (skipn n l) k = nth_error l (n + k).
Proof. induction n as [|n IH]; intros [|x l]; cbn; [reflexivity|reflexivity|now destruct k|apply IH]. Qed.

(** ** The rows of a reference and of an inferred constituent *)
Definition row_widths (tw : bool) (r : crow) (w : ci) : Prop :=
  if tw then w_Lsmaj_ci r = Some (Some (ci_maj w)) /\ w_Lsmin_ci r = Some (Some (ci_min w)) /\ w_theta_ci r = Some (Some (ci_theta w)) /\ w_g_ci r = Some (Some (ci_g w))
  else w_A_ci r = Some (Some (ci_maj w)) /\ w_g_ci r = Some (Some (ci_g w)).
Definition row_ellipse (tw : bool) (r : crow) (x : cs) : Prop :=
  let Xu := x_Xu x in let Yu := x_Yu x in let Xv := x_Xv x in let Yv := x_Yv x in
  if tw then w_Lsmaj r = Some (Some (maj_of Xu Yu Xv Yv)) /\ w_Lsmin r = Some (Some (min_of Xu Yu Xv Yv)) /\
      w_theta r = Some (Some (theta_of Xu Yu Xv Yv)) /\ w_g r = Some (g_of Xu Yu Xv Yv)
  else w_A r = Some (Some (A_of Xu Yu)) /\ w_g r = Some (g1_of Xu Yu).

Lemma inferred_rows L t u v lat opts sm c inf j i r rp rm : analysis L t u v lat opts sm c -> NoDup (c_name c) ->
  setting opts "conf_int" (PStr "linear") -> o_infer (c_opt c) = Some inf -> request_at inf (o_twodim (c_opt c)) j (i, r, rp, rm) ->
  forall wi wr, In wi (rows c) -> In wr (rows c) -> w_name wi = Some i -> w_name wr = Some r ->
  exists x gam p nc k cc, conf_one L (c_opt c) gam p nc k (x_Xu x) (x_Yu x) (x_Xv x) (x_Yv x) (x_g x) (x_theta x) = Ok cc /\ o_linci (c_opt c) = true /\
    row_ellipse (o_twodim (c_opt c)) wr x /\ row_widths (o_twodim (c_opt c)) wr cc /\
    row_widths (o_twodim (c_opt c)) wi (one_inferred (o_twodim (c_opt c)) x (ci_vc cc) (rp, rm)).
Proof.
  intros AN ND CI EI RQ wi wr Hwi Hwr Ni Nr.
  assert (HU := an_keys _ _ _ _ _ _ _ _ AN). apply setting_val in CI; try (exact HU || (cbn; tauto)).
  destruct (analysis_run _ _ _ _ _ _ _ _ AN) as (_ & si & la & s & B & xraw & m & W & BH & S1 & S2 & S3).
  assert (HS := an_sorted _ _ _ _ _ _ _ _ AN).
  destruct (solve_inv _ _ _ _ _ _ _ (an_solve _ _ _ _ _ _ _ _ AN)) as
    [(compat & si' & la' & o & s' & B' & xraw' & m' & W' & c1 & c2 & P1 & P2 & P3 & P4 & P5 & P6 & P7 & P8 & P9)].
  assert (Ho : c_opt c = o) by (rewrite (sb_opt _ _ (solve_base _ _ _ _ _ _ _ _ _ _ _ _ P7 P8 P9)); reflexivity).
  destruct (used_options opts (is2d v) (si_equi si') HU compat o P1 P4) as
    (_ & _ & Etw & _ & _ & Eci & Elin & _ & _ & _ & _ & _ & _ & _ & _ & Ewh & Eme & _ & Ep1 & Ep2 & _).
  rewrite CI in Eci, Elin. 
  assert (Eci0 : o_conf_int o = true) by exact Eci. assert (Elin0 : o_linci o = true) by exact Elin. clear Eci Elin.
  subst o.
  assert (Ela : la' = la) by (rewrite (bh_lat _ _ _ _ _ _ _ _ _ _ _ _ _ _ BH) in P3; congruence). subst la'.
  rewrite Ep2, <- Ep1, (bh_slv _ _ _ _ _ _ _ _ _ _ _ _ _ _ BH) in P2. apply Ok_inj in P2. subst si'.
  rewrite (bh_sel _ _ _ _ _ _ _ _ _ _ _ _ _ _ BH) in P5. apply Ok_inj in P5. subst s'.
  rewrite (bh_fit _ _ _ _ _ _ _ _ _ _ _ _ _ _ BH) in P6. apply Ok_inj in P6. injection P6 as <- <- <- <-.
  assert (F := diag_stage_core _ _ _ _ _ (ci_stage_core _ _ _ _ _ _ _ _ _ _ P7) P8).
  destruct (diag_stage_ci _ _ _ _ P8) as (E1 & E2 & E3 & E4 & E5).
  unfold ci_stage in P7. rewrite Eci0 in P7. inv_bind P7. apply Ok_inj in P7. rename a into cis. rename Ha into HC.
  unfold confidence in HC. rewrite EI, Elin0 in HC. inv_bind HC. rename a into p0. clear Ha. inv_bind HC. rename a into gam. clear Ha. inv_bind HC. rename a into cis0. rename Ha into HM. apply Ok_inj in HC.
  assert (SL := run_lens _ _ _ _ _ _ _ _ _ _ _ _ _ _ BH).
  assert (Hm := bh_len _ _ _ _ _ _ _ _ _ _ _ _ _ _ BH).
  assert (Lin : length (conf_input (o_twodim (c_opt c)) m s) = (s_nNR s + s_nR s)%nat) by (apply conf_input_len; rewrite Hm; unfold ncoef; lia).
  assert (Lc0 : length cis0 = (s_nNR s + s_nR s)%nat) by (apply mapM_idx_len in HM; congruence).
  assert (Hq := run_request _ _ _ _ _ _ _ _ _ _ _ _ _ _ BH inf j _ EI RQ).
  assert (NDs : NoDup (s_name s)).
  { eapply Permutation_NoDup; [|exact ND]. assert (P := bh_tri _ _ _ _ _ _ _ _ _ _ _ _ _ _ BH HS).
    assert (Wf := bh_wf _ _ _ _ _ _ _ _ _ _ _ _ _ _ BH).
    apply (Permutation_map fst) in P. rewrite triples_fst in P by assumption.
    rewrite combine_fst in P by (rewrite combine_length, map_length, (bh_pm _ _ _ _ _ _ _ _ _ _ _ _ _ _ BH), (ln_lind _ SL); lia).
    apply (Permutation_map fst) in P. rewrite combine_fst in P by (assert (A := wf_aligned _ Wf); destruct A as (_ & A & _); now rewrite A).
    rewrite combine_fst in P by now rewrite (ln_lind _ SL). exact P. }
  destruct (inferred_at (o_twodim (c_opt c)) i r rp rm (s_R s) (skipn (s_nNR s) (combine (conf_input (o_twodim (c_opt c)) m s) cis0))) as (k & x & cc & n & Q1 & Q2 & Q3 & Q4); auto.
  { rewrite skipn_length, combine_length, Lin, Lc0. assert (Z := ln_nR _ SL). lia. }
  { intros q Hq'. destruct (ln_I _ SL q Hq') as (_ & _ & Z1 & Z2). auto. }
  assert (Hk : (k < s_nR s)%nat) by (rewrite (ln_nR _ SL), <- (map_length r_name); apply nth_error_Some; congruence).
  assert (EN : length (s_NRname s) = s_nNR s) by (rewrite (ln_NRn _ SL), (ln_nNR _ SL); reflexivity).
  (* positions *)
  assert (Pr : nth_error (s_name s) (s_nNR s + k) = Some r).
  { rewrite (ln_name _ SL). rewrite nth_error_app2 by lia. rewrite EN. replace (s_nNR s + k - s_nNR s)%nat with k by lia.
    rewrite nth_error_app1; [exact Q1|]. rewrite map_length, <- (ln_nR _ SL). exact Hk. }
  assert (Pi : nth_error (s_name s) (s_nNR s + s_nR s + n) = Some i).
  { rewrite (ln_name _ SL). rewrite nth_error_app2 by lia. rewrite EN. rewrite nth_error_app2 by (rewrite map_length, <- (ln_nR _ SL); lia).
    rewrite map_length, <- (ln_nR _ SL). replace (s_nNR s + s_nR s + n - s_nNR s - s_nR s)%nat with n by lia. exact Q3. }
  destruct (reorder_row _ _ _ _ _ P9 Hwi) as (ki & Hki & ->). destruct (reorder_row _ _ _ _ _ P9 Hwr) as (kr & Hkr & ->).
  cbn [crow_of w_name] in Ni, Nr. rewrite (fc_name _ _ F) in Ni, Nr. cbn [coef_core c_name] in Ni, Nr.
  rewrite (nodup_pos _ _ _ _ NDs Ni Pi). rewrite (nodup_pos _ _ _ _ NDs Nr Pr). clear Ni Nr Hwi Hwr Hki Hkr ki kr.
  rewrite nth_skipn in Q2.
  assert (Q2' : nth_error (conf_input (o_twodim (c_opt c)) m s) (s_nNR s + k) = Some x /\ nth_error cis0 (s_nNR s + k) = Some cc).
  { clear - Q2 Lin Lc0. revert Q2. generalize (s_nNR s + k)%nat. revert cis0 Lc0. rewrite <- Lin. clear Lin. generalize (conf_input (o_twodim (c_opt c)) m s).
    induction l as [|y l IH]; intros [|z cis0] E [|q] H; try discriminate.
    - cbn in H. injection H as H1 H2. cbn [nth_error]. now rewrite H1, H2.
    - cbn in H. cbn [nth_error]. apply IH; auto. }
  destruct Q2' as [Nx Nc].
  assert (NC := mapM_idx_nth _ _ _ _ (s_nNR s + k)%nat cs0 {| ci_maj := NaN; ci_min := NaN; ci_theta := NaN; ci_g := NaN; ci_vc := [] |} HM ltac:(lia)).
  rewrite (nth_error_nth _ _ _ Nx), (nth_error_nth _ _ _ Nc) in NC.
  exists x, gam, p0. do 2 eexists. exists cc. split; [exact NC|]. split; [exact Elin0|].
  assert (Ni : nth_error cis (s_nNR s + s_nR s + n) = Some (one_inferred (o_twodim (c_opt c)) x (ci_vc cc) (rp, rm))).
  { subst cis. rewrite nth_error_app2 by lia. rewrite Lc0. replace (s_nNR s + s_nR s + n - (s_nNR s + s_nR s))%nat with n by lia. exact Q4. }
  assert (Nr : nth_error cis (s_nNR s + k) = Some cc).
  { subst cis. rewrite nth_error_app1 by lia. exact Nc. }
  assert (Npq : exists p q, nth_error (all_pm m s) (s_nNR s + k) = Some (p, q) /\
     x = {| x_Xu := Xu_of p q; x_Yu := Yu_of p q; x_Xv := Xv_of p q; x_Yv := Yv_of p q;
       x_g := e_g (ellipse_of (o_twodim (c_opt c)) p q); x_theta := e_theta (ellipse_of (o_twodim (c_opt c)) p q) |}).
  { unfold conf_input in Nx. rewrite nth_error_map in Nx.
    match type of Nx with option_map _ ?e = _ => destruct e as [[p q]|] eqn:Z; [|discriminate] end. cbn [option_map] in Nx. apply Some_eq in Nx.
    exists p, q. split; [|now symmetry]. unfold all_pm. rewrite nth_error_app1; [exact Z|]. apply nth_error_Some. congruence. }
  destruct Npq as (p & q & Npq & ->).
  unfold row_ellipse, row_widths.
  cbn [crow_of w_A w_g w_Lsmaj w_Lsmin w_theta w_g_ci w_A_ci w_Lsmaj_ci w_Lsmin_ci w_theta_ci x_Xu x_Yu x_Xv x_Yv].
  rewrite E1, E2, E3, E4, E5. rewrite (fc_g _ _ F), (fc_A _ _ F), (fc_maj _ _ F), (fc_min _ _ F), (fc_th _ _ F).
  cbn [coef_core c_g c_A c_Lsmaj c_Lsmin c_theta]. subst c1. cbn [set_ci c_g_ci c_A_ci c_Lsmaj_ci c_Lsmin_ci c_theta_ci].
  revert Ni. generalize (one_inferred (o_twodim (c_opt c))). intros oi Ni.
  clear - Ni Nr Npq. destruct (o_twodim (c_opt c)); cbn [oif negb at_ option_map]; rewrite !nth_error_map, Ni, Nr, Npq; cbn [option_map fst snd]; repeat split.
Qed.

(** ** Finite widths come from finite variances *)
Lemma xadd_finite a b x : xadd a b = Fin x -> exists y z, a = Fin y /\ b = Fin z.
Proof. destruct a, b; cbn; try discriminate; eauto. Qed.
Lemma xmul_finite a b x : xmul a b = Fin x -> exists y z, a = Fin y /\ b = Fin z.
Proof.
  destruct a as [y| | |], b as [z| | |]; cbn; try discriminate; eauto; unfold sgn_inf;
    repeat match goal with |- context [if ?d then _ else _] => destruct d end; try discriminate.
Qed.
Lemma xsqrt_finite a x : xsqrt a = Fin x -> exists y, a = Fin y /\ 0 <= y.
Proof. destruct a as [y| | |]; cbn; try discriminate. destruct (Rlt_dec y 0); [discriminate|]. intros _. exists y. split; [reflexivity|lra]. Qed.
Lemma x4_finite f s x : x4 f s = Fin x -> let '(s1, s2, s3, s4) := s in (exists a, s1 = Fin a) /\ (exists a, s2 = Fin a) /\ (exists a, s3 = Fin a) /\ (exists a, s4 = Fin a).
Proof.
  destruct f as [[[f1 f2] f3] f4], s as [[[s1 s2] s3] s4]. unfold x4. intros H.
  apply xsqrt_finite in H. destruct H as (y & H & _).
  apply xadd_finite in H. destruct H as (y1 & y2 & H & H4). apply xadd_finite in H. destruct H as (y3 & y4 & H & H3). apply xadd_finite in H. destruct H as (y5 & y6 & H1 & H2).
  unfold xsq in *. assert (G : forall f s y, xmul (xmul f f) (xmul s s) = Fin y -> exists a, s = Fin a).
  { intros f s z E. apply xmul_finite in E. destruct E as (? & ? & _ & E). apply xmul_finite in E. destruct E as (? & ? & E & _). eauto. }
  repeat split; eapply G; eassumption.
Qed.
Lemma linci_finite Xu Yu Xv Yv s1 s2 s3 s4 x : fst (fst (ut_linci Xu Yu Xv Yv s1 s2 s3 s4)) = Fin x ->
  ~ circular Xu Yu Xv Yv /\ (exists a, s1 = Fin a) /\ (exists a, s2 = Fin a) /\ (exists a, s3 = Fin a) /\ (exists a, s4 = Fin a).
Proof.
  intros H. split.
  - intros K. rewrite (L_Conf2.linci_nan _ _ _ _ _ _ _ _ K) in H. destruct (Req_EM_T Xv 0); discriminate.
  - unfold ut_linci in H. cbv zeta in H. destruct (Req_EM_T Xv 0); cbn [fst xcomplex] in H.
    + exact (x4_finite _ (s1, s2, s3, s4) _ H).
    + unfold xcomplex in H. cbn [fst] in H. match type of H with match ?d with _ => _ end = _ => destruct d end; try discriminate. exact (x4_finite _ (s1, s2, s3, s4) _ H).
Qed.
Lemma csig_finite a b x y : csig a b = (Fin x, Fin y) -> exists p q, a = Fin p /\ b = Fin q /\ 0 <= p /\ 0 <= q.
Proof.
  unfold csig, xcomplex. destruct (xsqrt b) eqn:E; intros H; try discriminate. injection H as H _.
  apply xsqrt_finite in E, H. destruct E as (q & -> & Q), H as (p & -> & P). eauto 10.
Qed.

Lemma linear1_finite X Y V1 V2 P a : ci_maj (linear1 X Y V1 V2 P) = Fin a ->
  exists x y, 0 <= x /\ 0 <= y /\ (X <> 0 \/ Y <> 0) /\ linear1 X Y V1 V2 P = linear1 X Y (Fin x) (Fin y) None.
Proof.
  unfold linear1 at 1 2. destruct (match P with None => (V1, V2) | Some P => _ end) as [vX vY]. intros H.
  destruct (ut_linci X Y 0 0 (xsqrt vX) (xsqrt vY) (Fin 0) (Fin 0)) as [[s1 s1'] [s2 s2']] eqn:E. cbn [ci_maj] in H.
  apply xmul_finite in H. destruct H as (_ & z & _ & Hz). 
  destruct (linci_finite X Y 0 0 (xsqrt vX) (xsqrt vY) (Fin 0) (Fin 0) z) as (NC & (a1 & H1) & (a2 & H2) & _); [now rewrite E|].
  apply xsqrt_finite in H1, H2. destruct H1 as (x & -> & Hx), H2 as (y & -> & Hy). exists x, y. split; auto. split; auto. split.
  - destruct (Req_dec X 0) as [->|]; auto. destruct (Req_dec Y 0) as [->|]; auto. exfalso. apply NC. left. lra.
  - unfold linear1. now rewrite E.
Qed.
Lemma linear2_finite Xu Yu Xv Yv V1 V2 V3 V4 P a : ci_maj (linear2 Xu Yu Xv Yv V1 V2 V3 V4 P) = Fin a ->
  exists p q r s, 0 <= p /\ 0 <= q /\ 0 <= r /\ 0 <= s /\ ~ circular Xu Yu Xv Yv /\
    linear2 Xu Yu Xv Yv V1 V2 V3 V4 P = linear2 Xu Yu Xv Yv (Fin p) (Fin q) (Fin r) (Fin s) None.
Proof.
  unfold linear2 at 1 2. destruct (match P with None => (V3, V4) | Some P => _ end) as [vX vY]. intros H.
  destruct (csig V1 vX) as [c1 c2] eqn:C1. destruct (csig V2 vY) as [d1 d2] eqn:C2.
  destruct (ut_linci Xu Yu Xv Yv c1 d1 c2 d2) as [[s1 s1'] [s2 s2']] eqn:E. cbn [ci_maj] in H.
  apply xmul_finite in H. destruct H as (_ & z & _ & Hz).
  destruct (linci_finite Xu Yu Xv Yv c1 d1 c2 d2 z) as (NC & (a1 & H1) & (a2 & H2) & (a3 & H3) & (a4 & H4)); [now rewrite E|].
  subst. destruct (csig_finite _ _ _ _ C1) as (p & q & -> & -> & Hp & Hq). destruct (csig_finite _ _ _ _ C2) as (r & s & -> & -> & Hr & Hs).
  exists p, r, q, s. repeat (split; [assumption|]). unfold linear2. now rewrite C1, C2, E.
Qed.

(** ** Closed forms *)
Lemma linear1_vc X Y x y : ci_vc (linear1 X Y (Fin x) (Fin y) None) = [Fin x; Fin y].
Proof. unfold linear1. destruct (ut_linci _ _ _ _ _ _ _ _) as [[? ?] [? ?]]. reflexivity. Qed.
Lemma linear2_vc Xu Yu Xv Yv a b c d : ci_vc (linear2 Xu Yu Xv Yv (Fin a) (Fin b) (Fin c) (Fin d) None) = [Fin a; Fin b; Fin c; Fin d].
Proof. unfold linear2. destruct (csig _ _), (csig _ _), (ut_linci _ _ _ _ _ _ _ _) as [[? ?] [? ?]]. reflexivity. Qed.

Lemma one_inferred1 x p q r : exists vX vY,
  vX = (fst (fst r) ^ 2 + fst (snd r) ^ 2) * (p / 4) + (snd (fst r) ^ 2 + snd (snd r) ^ 2) * (q / 4) /\
  vY = (fst (fst r) ^ 2 + fst (snd r) ^ 2) * (q / 4) + (snd (fst r) ^ 2 + snd (snd r) ^ 2) * (p / 4) /\
  ci_maj (one_inferred false x [Fin p; Fin q] r) = ci_maj (linear1 (x_Xu x) (x_Yu x) (Fin vX) (Fin vY) None) /\
  ci_g (one_inferred false x [Fin p; Fin q] r) = ci_g (linear1 (x_Xu x) (x_Yu x) (Fin vX) (Fin vY) None).
Proof.
  do 2 eexists. split; [reflexivity|]. split; [reflexivity|].
  unfold one_inferred, conf_inferred, linear1. cbn [r_Rp r_Rm combine map hd nth nth_x xmul xadd].
  destruct r as [rp rm]. cbn [fst snd].
  replace ((Rsqr (fst rp) + Rsqr (fst rm)) * (/ 4 * p) + (Rsqr (snd rp) + Rsqr (snd rm)) * (/ 4 * q)) with
    ((fst rp ^ 2 + fst rm ^ 2) * (p / 4) + (snd rp ^ 2 + snd rm ^ 2) * (q / 4)) by (unfold Rsqr; field).
  replace ((Rsqr (fst rp) + Rsqr (fst rm)) * (/ 4 * q) + (Rsqr (snd rp) + Rsqr (snd rm)) * (/ 4 * p)) with
    ((fst rp ^ 2 + fst rm ^ 2) * (q / 4) + (snd rp ^ 2 + snd rm ^ 2) * (p / 4)) by (unfold Rsqr; field).
  destruct (ut_linci _ _ _ _ _ _ _ _) as [[? ?] [? ?]]. split; reflexivity.
Qed.
Lemma one_inferred2 x a b c d r : exists vX vY,
  vX = (fst (fst r) ^ 2 + fst (snd r) ^ 2) * ((a + d) / 4) + (snd (fst r) ^ 2 + snd (snd r) ^ 2) * ((b + c) / 4) /\
  vY = (fst (fst r) ^ 2 + fst (snd r) ^ 2) * ((b + c) / 4) + (snd (fst r) ^ 2 + snd (snd r) ^ 2) * ((a + d) / 4) /\
  let w := one_inferred true x [Fin a; Fin b; Fin c; Fin d] r in
  let w' := linear2 (x_Xu x) (x_Yu x) (x_Xv x) (x_Yv x) (Fin vX) (Fin vY) (Fin vY) (Fin vX) None in
  ci_maj w = ci_maj w' /\ ci_min w = ci_min w' /\ ci_theta w = ci_theta w' /\ ci_g w = ci_g w'.
Proof.
  do 2 eexists. split; [reflexivity|]. split; [reflexivity|].
  unfold one_inferred, conf_inferred, linear2. cbn [r_Rp r_Rm combine map hd nth nth_x xmul xadd].
  destruct r as [rp rm]. cbn [fst snd].
  replace ((Rsqr (fst rp) + Rsqr (fst rm)) * (/ 4 * a + / 4 * d) + (Rsqr (snd rp) + Rsqr (snd rm)) * (/ 4 * b + / 4 * c)) with
    ((fst rp ^ 2 + fst rm ^ 2) * ((a + d) / 4) + (snd rp ^ 2 + snd rm ^ 2) * ((b + c) / 4)) by (unfold Rsqr; field).
  replace ((Rsqr (fst rp) + Rsqr (fst rm)) * (/ 4 * b + / 4 * c) + (Rsqr (snd rp) + Rsqr (snd rm)) * (/ 4 * a + / 4 * d)) with
    ((fst rp ^ 2 + fst rm ^ 2) * ((b + c) / 4) + (snd rp ^ 2 + snd rm ^ 2) * ((a + d) / 4)) by (unfold Rsqr; field).
  destruct (csig _ _), (csig _ _), (ut_linci _ _ _ _ _ _ _ _) as [[? ?] [? ?]]. cbv zeta. repeat split; reflexivity.
Qed.

(** scalar widths in terms of amplitude and phase *)
Lemma closed_phase X Y a b A g : X <> 0 \/ Y <> 0 -> 0 <= a -> 0 <= b -> A_of X Y = A -> g1_of X Y = g ->
  scalar_widths A g a b (ci_maj (linear1 X Y (Fin a) (Fin b) None)) (ci_g (linear1 X Y (Fin a) (Fin b) None)).
Proof.
  intros XY Ha Hb EA Eg.
  destruct (cs2cep1 X Y) as [[[A' mi] th] g'] eqn:E.
  assert (A' = A) by (rewrite <- EA; unfold A_of; now rewrite E). assert (g' = g) by (rewrite <- Eg; unfold g1_of; now rewrite E). subst A' g'.
  destruct (cep1_lemma _ _ _ _ _ _ E) as (A0 & _ & _ & _ & AS & M).
  assert (XE : A * cos (rad g) = X).
  { generalize (M 0). unfold component. rewrite cos_minus, cos_0, sin_0. intros; lra. }
  assert (YE : A * sin (rad g) = Y).
  { generalize (M (PI / 2)). unfold component. rewrite cos_minus, cos_PI2, sin_PI2. intros; lra. }
  assert (NZ : A <> 0). { intros Z. rewrite Z in XE, YE. lra. }
  destruct (linear1_closed X Y a b XY Ha Hb) as [W1 W2]. unfold scalar_widths. rewrite W1, W2. rewrite A_of_sq in EA. rewrite EA. rewrite <- XE, <- YE.
  replace (A * cos (rad g) / A) with (cos (rad g)) by (field; exact NZ). replace (A * sin (rad g) / A) with (sin (rad g)) by (field; exact NZ). auto.
Qed.
Lemma closed_ellipse Xu Yu Xv Yv a b c d : ~ circular Xu Yu Xv Yv -> 0 <= a -> 0 <= b -> 0 <= c -> 0 <= d ->
  let w := linear2 Xu Yu Xv Yv (Fin a) (Fin b) (Fin c) (Fin d) None in
  vector_widths Xu Yu Xv Yv a b c d (ci_maj w) (ci_min w) (ci_theta w) (ci_g w).
Proof.
  intros NC Ha Hb Hc Hd. destruct (linear2_widths _ _ _ _ a b c d NC Ha Hb Hc Hd) as (dmaj & dmin & dth & dg & P1 & P2 & P3 & P4 & E).
  exists dmaj, dmin, dth, dg. repeat (split; [assumption|]). cbv zeta in *. destruct E as (E1 & E2 & E3 & E4). rewrite E1, E2, E3, E4.
  split; [reflexivity|]. split; [reflexivity|]. intros N. destruct (Req_EM_T Xv 0); [contradiction|auto].
Qed.

(** ** The theorems *)
Lemma inferred_scalar L t u lat opts sm c inf j i r a o : analysis L t u None lat opts sm c -> NoDup (c_name c) ->
  setting opts "conf_int" (PStr "linear") -> o_infer (c_opt c) = Some inf ->
  nth_error (inf_inferred inf) j = Some i -> nth_error (inf_reference inf) j = Some r ->
  nth_error (inf_amp inf) j = Some a -> nth_error (inf_off inf) j = Some o ->
  forall wi wr A g dA, In wi (rows c) -> In wr (rows c) -> w_name wi = Some i -> w_name wr = Some r ->
  w_A wr = Some (Some A) -> w_g wr = Some g -> w_A_ci wr = Some (Some (Fin dA)) ->
  exists vX vY rA rg iA ig, 0 <= vX /\ 0 <= vY /\
    w_A_ci wr = Some (Some rA) /\ w_g_ci wr = Some (Some rg) /\ scalar_widths A g vX vY rA rg /\
    w_A_ci wi = Some (Some iA) /\ w_g_ci wi = Some (Some ig) /\
    scalar_widths A g (a ^ 2 / 2 * (cos (rad o) ^ 2 * vX + sin (rad o) ^ 2 * vY))
                      (a ^ 2 / 2 * (cos (rad o) ^ 2 * vY + sin (rad o) ^ 2 * vX)) iA ig.
Proof.
  intros AN ND CI EI H1 H2 H3 H4 wi wr A g dA Hi Hr Ni Nr HA Hg HD.
  assert (D := set_twodim _ _ _ _ _ _ (an_keys _ _ _ _ _ _ _ _ AN) _ (an_solve _ _ _ _ _ _ _ _ AN)). cbn [is2d] in D.
  assert (RQ : request_at inf (o_twodim (c_opt c)) j (i, r, Cmult (RtoC a) (turn o), Cmult (RtoC a) (turn (- o)))).
  { rewrite D. exists i, r, a, o. repeat split; auto. }
  destruct (inferred_rows _ _ _ _ _ _ _ _ _ _ _ _ _ _ AN ND CI EI RQ wi wr Hi Hr Ni Nr) as (x & gam & p & nc & k & cc & CO & LI & RE & RW & RI).
  rewrite D in *. unfold row_ellipse, row_widths in *. destruct RE as (A1 & A2), RW as (W1 & W2), RI as (I1 & I2).
  unfold conf_one in CO. rewrite LI, D in CO. cbv zeta in CO. apply Ok_inj in CO.
  rewrite W1 in HD. injection HD as HD. rewrite <- CO in HD. apply linear1_finite in HD. destruct HD as (vX & vY & Hx & Hy & NZ & E).
  rewrite E in CO. rewrite <- CO, linear1_vc in *. clear E.
  destruct (one_inferred1 x vX vY (Cmult (RtoC a) (turn o), Cmult (RtoC a) (turn (- o)))) as (vX' & vY' & V1 & V2 & F1 & F2).
  rewrite F1 in I1. rewrite F2 in I2. rewrite A1 in HA. injection HA as HA. rewrite A2 in Hg. injection Hg as Hg.
  exists vX, vY. do 4 eexists. split; [exact Hx|]. split; [exact Hy|]. split; [exact W1|]. split; [exact W2|].
  split; [now apply closed_phase|]. split; [exact I1|]. split; [exact I2|].
  assert (G : forall f, fst (Cmult (RtoC a) (turn f)) = a * cos (rad f) /\ snd (Cmult (RtoC a) (turn f)) = a * sin (rad f)).
  { intros f. unfold turn, cis, rad. cbn. split; ring. }
  cbn [fst snd] in V1, V2. destruct (G o) as [G1 G2], (G (- o)) as [G3 G4]. rewrite G1, G2, G3, G4 in V1, V2.
  assert (RO : rad (- o) = - rad o) by (unfold rad; field). rewrite RO, cos_neg, sin_neg in V1, V2.
  replace vX' with (a ^ 2 / 2 * (cos (rad o) ^ 2 * vX + sin (rad o) ^ 2 * vY)) in * by (rewrite V1; field).
  replace vY' with (a ^ 2 / 2 * (cos (rad o) ^ 2 * vY + sin (rad o) ^ 2 * vX)) in * by (rewrite V2; field).
  apply closed_phase; auto; (apply Rmult_le_pos; [assert (0 <= a ^ 2) by apply pow2_ge_0; lra|apply Rplus_le_le_0_compat; apply Rmult_le_pos; auto; apply pow2_ge_0]).
Qed.

Lemma inferred_vector L t u v lat opts sm c inf j i r rp rm : analysis L t u (Some v) lat opts sm c -> NoDup (c_name c) ->
  setting opts "conf_int" (PStr "linear") -> o_infer (c_opt c) = Some inf -> request_at inf true j (i, r, rp, rm) ->
  forall wi wr d, In wi (rows c) -> In wr (rows c) -> w_name wi = Some i -> w_name wr = Some r ->
  w_Lsmaj_ci wr = Some (Some (Fin d)) ->
  exists Xu Yu Xv Yv, w_Lsmaj wr = Some (Some (maj_of Xu Yu Xv Yv)) /\ w_Lsmin wr = Some (Some (min_of Xu Yu Xv Yv)) /\
    w_theta wr = Some (Some (theta_of Xu Yu Xv Yv)) /\ w_g wr = Some (g_of Xu Yu Xv Yv) /\ ~ circular Xu Yu Xv Yv /\
  exists vXu vYu vXv vYv r1 r2 r3 r4 i1 i2 i3 i4, 0 <= vXu /\ 0 <= vYu /\ 0 <= vXv /\ 0 <= vYv /\
    w_Lsmaj_ci wr = Some (Some r1) /\ w_Lsmin_ci wr = Some (Some r2) /\ w_theta_ci wr = Some (Some r3) /\ w_g_ci wr = Some (Some r4) /\
    vector_widths Xu Yu Xv Yv vXu vYu vXv vYv r1 r2 r3 r4 /\
    w_Lsmaj_ci wi = Some (Some i1) /\ w_Lsmin_ci wi = Some (Some i2) /\ w_theta_ci wi = Some (Some i3) /\ w_g_ci wi = Some (Some i4) /\
    let re := fst rp ^ 2 + fst rm ^ 2 in let im := snd rp ^ 2 + snd rm ^ 2 in
    let p := re * ((vXu + vYv) / 4) + im * ((vYu + vXv) / 4) in let q := re * ((vYu + vXv) / 4) + im * ((vXu + vYv) / 4) in
    vector_widths Xu Yu Xv Yv p q q p i1 i2 i3 i4.
Proof.
  intros AN ND CI EI RQ wi wr d Hi Hr Ni Nr HD.
  assert (D := set_twodim _ _ _ _ _ _ (an_keys _ _ _ _ _ _ _ _ AN) _ (an_solve _ _ _ _ _ _ _ _ AN)). cbn [is2d] in D.
  rewrite <- D in RQ.
  destruct (inferred_rows _ _ _ _ _ _ _ _ _ _ _ _ _ _ AN ND CI EI RQ wi wr Hi Hr Ni Nr) as (x & gam & p & nc & k & cc & CO & LI & RE & RW & RI).
  rewrite D in *. unfold row_ellipse, row_widths in *. destruct RE as (A1 & A2 & A3 & A4), RW as (W1 & W2 & W3 & W4), RI as (I1 & I2 & I3 & I4).
  unfold conf_one in CO. rewrite LI, D in CO. cbv zeta in CO. apply Ok_inj in CO.
  rewrite W1 in HD. injection HD as HD. rewrite <- CO in HD. apply linear2_finite in HD. destruct HD as (va & vb & vc & vd & Pa & Pb & Pc & Pd & NC & E).
  rewrite E in CO. rewrite <- CO, linear2_vc in *. clear E.
  destruct (one_inferred2 x va vb vc vd (rp, rm)) as (vX' & vY' & V1 & V2 & F1 & F2 & F3 & F4).
  rewrite F1 in I1. rewrite F2 in I2. rewrite F3 in I3. rewrite F4 in I4.
  exists (x_Xu x), (x_Yu x), (x_Xv x), (x_Yv x). repeat (split; [assumption|]).
  exists va, vb, vc, vd. do 8 eexists. repeat (split; [eassumption|]). split; [now apply closed_ellipse|]. repeat (split; [eassumption|]).
  cbv zeta. cbn [fst snd] in V1, V2. rewrite <- V1, <- V2.
  assert (SQ : forall z : R, 0 <= z ^ 2) by (intros; apply pow2_ge_0).
  assert (S1 := SQ (fst rp)). assert (S2 := SQ (fst rm)). assert (S3 := SQ (snd rp)). assert (S4 := SQ (snd rm)).
  assert (0 <= vX') by (rewrite V1; apply Rplus_le_le_0_compat; apply Rmult_le_pos; lra).
  assert (0 <= vY') by (rewrite V2; apply Rplus_le_le_0_compat; apply Rmult_le_pos; lra).
  apply closed_ellipse; auto.
Qed.
