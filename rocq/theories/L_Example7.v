(** A concrete run with residuals and linearised intervals: M2 from four samples plus noise that no M2 tide can follow. *)
From Coq Require Import QArith Qreals Lia Lra Permutation.
From Coquelicot Require Import Coquelicot.
From Verif Require Import M_Base M_Lib M_Tables M_Const M_Options M_Time M_Slvinit M_Harmonics M_Select M_Ellipse
  M_Robust M_Period M_Conf M_Diag M_Solve M_Recon S_Dict S_Options S_Slv S_Order S_Basis S_Select S_Fit S_Ellipse S_Recon S_Model S_Errors
  L_Base L_Options L_SolveInv L_OptSolve L_Slv L_Slv2 L_Tables L_Order L_Select L_Fit L_Align L_SelOrder L_Order2 L_Order3 L_Example L_Angle L_Core L_Ellipse L_Ellipse2 L_Example3 L_Example4 L_Example5.
Open Scope R_scope.
Open Scope string_scope.

(** ** inverse of a 3 by 3 matrix *)
Definition det3 (a b c d e f g h i : C) : C :=
  Cplus (Cminus (Cmult a (Cminus (Cmult e i) (Cmult f h))) (Cmult b (Cminus (Cmult d i) (Cmult f g)))) (Cmult c (Cminus (Cmult d h) (Cmult e g))).
Definition inv3 (M : cmat) : res cmat :=
  match M with
  | [[a; b; c]; [d; e; f]; [g; h; i]] =>
      if Cdec (det3 a b c d e f g h i) (RtoC 0) then Err LinAlgError
      else let q := fun x => Cdiv x (det3 a b c d e f g h i) in
        Ok [[q (Cminus (Cmult e i) (Cmult f h)); q (Cminus (Cmult c h) (Cmult b i)); q (Cminus (Cmult b f) (Cmult c e))];
            [q (Cminus (Cmult f g) (Cmult d i)); q (Cminus (Cmult a i) (Cmult c g)); q (Cminus (Cmult c d) (Cmult a f))];
            [q (Cminus (Cmult d h) (Cmult e g)); q (Cminus (Cmult b g) (Cmult a h)); q (Cminus (Cmult a e) (Cmult b d))]]
  | _ => Err LinAlgError
  end.
Definition noisyL (B0 : cmat) (x0 m0 : list C) : lib :=
  {| l_parse := fun _ => None;
     l_lstsq := fun B x _ => if list_eq_dec (list_eq_dec Cdec) B B0 then if list_eq_dec Cdec x x0 then Ok (m0, [], length m0, []) else Err LinAlgError else Err LinAlgError;
     l_pinv := fun X => Ok X; l_inv := inv3;
     l_svd := fun M => Ok (M, map (fun _ => 0) M, M); l_eigvals := fun M => Ok (map (fun _ => RtoC 0) M);
     l_is_PD := fun _ => true; l_spacing := fun _ => 0;
     l_mvn := fun _ m _ n => Ok (repeat m n); l_lomb := fun t x f => map (fun _ => 0) f;
     l_argsort := ins_argsort |}.

Lemma noisy_inv B0 x0 m0 : inv_exact (noisyL B0 x0 m0).
Proof.
  intros n M X [H1 H2] H. cbn [noisyL l_inv] in H. unfold inv3 in H.
  destruct M as [|[|a [|b [|c [|]]]] [|[|d [|e [|f [|]]]] [|[|g [|h [|i [|]]]] [|]]]]; try discriminate.
  cbn in H1. subst n. clear H2. destruct (Cdec _ _) as [|NZ]; [discriminate|]. apply Ok_inj in H. cbv zeta in H. subst X.
  unfold product_is_identity, centry_at. set (D := det3 _ _ _ _ _ _ _ _ _) in *.
  assert (ED : D = det3 a b c d e f g h i) by reflexivity. unfold det3 in ED. clearbody D.
  split; intros j k Hj Hk; (destruct j as [|[|[|]]]; [| | |lia]); (destruct k as [|[|[|]]]; [| | |lia]);
    cbn [seq map nth csum fold_right Nat.eqb]; unfold Cdiv;
    (transitivity (Cmult (det3 a b c d e f g h i) (Cinv D)); [unfold det3; ring|change (det3 a b c d e f g h i) with (det3 a b c d e f g h i); unfold det3; rewrite <- ED, Cinv_r by exact NZ; reflexivity]) ||
    (transitivity (Cmult (RtoC 0) (Cinv D)); [ring|ring]).
Qed.

(** ** four rows *)
Section Rows.
Variables (x0 x1 x2 x3 y0 y1 y2 y3 : R).
Definition rows4 : cmat := map (fun p : R * R => [(p : C); Cconj (p : C); RtoC 1]) [(x0, y0); (x1, y1); (x2, y2); (x3, y3)].
Definition area (a b c d e f : R) : R := a * d - c * b + (c * f - e * d) + (e * b - a * f).
Definition area2 : R := area x0 y0 x1 y1 x2 y2 ^ 2 + area x0 y0 x1 y1 x3 y3 ^ 2 + area x0 y0 x2 y2 x3 y3 ^ 2 + area x1 y1 x2 y2 x3 y3 ^ 2.
Lemma gram_inv : area x0 y0 x2 y2 x3 y3 <> 0 ->
  (exists X, inv3 (gram (cconj_mat rows4) rows4 [1; 1; 1; 1] 3) = Ok X) /\ exists X, inv3 (gram rows4 rows4 [1; 1; 1; 1] 3) = Ok X.
Proof.
  intros NZ. assert (P : 0 < area2).
  { unfold area2. assert (0 < area x0 y0 x2 y2 x3 y3 ^ 2) by (assert (K := pow_nonzero _ 2 NZ); assert (G := pow2_ge_0 (area x0 y0 x2 y2 x3 y3)); lra).
    assert (G1 := pow2_ge_0 (area x0 y0 x1 y1 x2 y2)). assert (G2 := pow2_ge_0 (area x0 y0 x1 y1 x3 y3)). assert (G3 := pow2_ge_0 (area x1 y1 x2 y2 x3 y3)). lra. }
  unfold gram, cconj_mat, rows4. cbn [seq map combine csum fold_right nth fst snd]. unfold inv3. split.
  - destruct (Cdec _ _) as [E|E]; [exfalso|eauto]. apply (f_equal fst) in E. cbv [det3 Cmult Cplus Cminus Copp Cconj RtoC fst snd] in E.
    assert (4 * area2 = 0); [|lra]. rewrite <- E. unfold area2, area. ring.
  - destruct (Cdec _ _) as [E|E]; [exfalso|eauto]. apply (f_equal fst) in E. cbv [det3 Cmult Cplus Cminus Copp Cconj RtoC fst snd] in E.
    assert (- (4 * area2) = 0); [|lra]. rewrite <- E. unfold area2, area. ring.
Qed.

Variables (n0 n1 n2 n3 : R) (z : C).
Hypothesis N0 : n0 + n1 + n2 + n3 = 0.
Hypothesis NX : n0 * x0 + n1 * x1 + n2 * x2 + n3 * x3 = 0.
Hypothesis NY : n0 * y0 + n1 * y1 + n2 * y2 + n3 * y3 = 0.
Definition noisy (m0 : list C) : list C := map (fun p : list C * R => Cplus (cdot (fst p) m0) (Cmult (RtoC (snd p)) z)) (combine rows4 [n0; n1; n2; n3]).
Lemma noisy_least a b c a' b' c' :
  norm2 (csub (cmatvec rows4 [a; b; c]) (noisy [a; b; c])) <= norm2 (csub (cmatvec rows4 [a'; b'; c']) (noisy [a; b; c])).
Proof.
  assert (E : forall da db dc, norm2 (map (fun p : list C * R => Cminus (cdot (fst p) [da; db; dc]) (Cmult (RtoC (snd p)) z)) (combine rows4 [n0; n1; n2; n3])) =
    norm2 (cmatvec rows4 [da; db; dc]) + norm2 (map (fun x => Cmult (RtoC x) z) [n0; n1; n2; n3])).
  { intros [a1 a2] [b1 b2] [c1 c2]. destruct z as [z1 z2].
    transitivity (norm2 (cmatvec rows4 [(a1, a2); (b1, b2); (c1, c2)]) + norm2 (map (fun x => Cmult (RtoC x) (z1, z2)) [n0; n1; n2; n3]) -
      2 * (((a1 + b1) * z1 + (a2 + b2) * z2) * (n0 * x0 + n1 * x1 + n2 * x2 + n3 * x3) + ((b2 - a2) * z1 + (a1 - b1) * z2) * (n0 * y0 + n1 * y1 + n2 * y2 + n3 * y3) +
           (c1 * z1 + c2 * z2) * (n0 + n1 + n2 + n3))).
    - unfold norm2, cmatvec, rows4, cdot, csum. cbn [map combine fst snd fold_right rsum]. cbv [rsum fold_right Cmult Cplus Cminus Copp Cconj RtoC fst snd]. ring.
    - rewrite N0, NX, NY. rewrite !Rmult_0_r. match goal with |- ?a + ?b - ?d = _ => change (a + b - d = a + b) end. lra. }
  assert (E0 := E (RtoC 0) (RtoC 0) (RtoC 0)). assert (E1 := E (Cminus a' a) (Cminus b' b) (Cminus c' c)).
  replace (csub (cmatvec rows4 [a; b; c]) (noisy [a; b; c])) with (map (fun p : list C * R => Cminus (cdot (fst p) [RtoC 0; RtoC 0; RtoC 0]) (Cmult (RtoC (snd p)) z)) (combine rows4 [n0; n1; n2; n3])).
  2: { unfold csub, noisy, cmatvec, rows4, cdot, csum. cbn [map combine fst snd fold_right]. do 3 (f_equal; [ring|]). f_equal. ring. }
  replace (csub (cmatvec rows4 [a'; b'; c']) (noisy [a; b; c])) with (map (fun p : list C * R => Cminus (cdot (fst p) [Cminus a' a; Cminus b' b; Cminus c' c]) (Cmult (RtoC (snd p)) z)) (combine rows4 [n0; n1; n2; n3])).
  2: { unfold csub, noisy, cmatvec, rows4, cdot, csum. cbn [map combine fst snd fold_right]. do 3 (f_equal; [ring|]). f_equal. ring. }
  rewrite E0, E1. assert (G := norm2_nonneg (cmatvec rows4 [Cminus a' a; Cminus b' b; Cminus c' c])).
  assert (Z : norm2 (cmatvec rows4 [RtoC 0; RtoC 0; RtoC 0]) = 0).
  { unfold norm2, cmatvec, rows4, cdot. cbn [map combine fst snd]. cbv [csum rsum fold_right Cmult Cplus RtoC Cconj fst snd]. ring. }
  lra.
Qed.
Lemma noisy_minimises a b c : lstsq_minimises (noisyL rows4 (noisy [a; b; c]) [a; b; c]).
Proof.
  intros B x m r k s H m' Hm'. cbn [noisyL l_lstsq] in H. destruct (list_eq_dec _ B rows4) as [->|]; [|discriminate].
  destruct (list_eq_dec _ x _) as [->|]; [|discriminate]. apply Ok_inj in H. injection H as <- _ _ _.
  destruct m' as [|a' [|b' [|c' [|]]]]; try discriminate. apply noisy_least.
Qed.
Lemma noisy_shape a b c : lstsq_shape (noisyL rows4 (noisy [a; b; c]) [a; b; c]).
Proof.
  intros B x rc m r k s H row Hr. cbn [noisyL l_lstsq] in H. destruct (list_eq_dec _ B rows4) as [->|]; [|discriminate].
  destruct (list_eq_dec _ x _) as [->|]; [|discriminate]. apply Ok_inj in H. injection H as <- _ _ _.
  unfold rows4 in Hr. cbn [map In] in Hr. repeat (destruct Hr as [<-|Hr]; [reflexivity|]). destruct Hr.
Qed.
End Rows.

(** ** the run *)
Definition lin_opts (mc : bool) : dict pyval := (("conf_int", PStr (if mc then "MC" else "linear")) :: ("order_constit", PStr "frequency") :: ("constit", PSeq [PStr "M2"]) :: base_opts)%list.
Definition k1 : R := cos al - 1.
Definition ks_ : R := 1 - cos (al / 2).
Definition kd_ : R := k1 * sin (al / 2) / sin al.
Definition noise4 : list R := [(ks_ - kd_) / 2; k1; - ks_ - k1; (ks_ + kd_) / 2].
Definition n4 (i : nat) : R := nth i noise4 0.
Notation B4 := (rows4 (cos al) (cos (al / 2)) 1 (cos al) (- sin al) (- sin (al / 2)) 0 (sin al)).

Lemma ex_B_rows4 : ex_B [47%nat] = B4.
Proof.
  unfold ex_B, ex_row, rows4, ext. cbn [map app]. rewrite !ex_e_val.
  replace ((0 - 2) / 2 * al) with (- al) by field. replace ((1 - 2) / 2 * al) with (- (al / 2)) by field.
  replace ((2 - 2) / 2 * al) with 0 by field. replace ((4 - 2) / 2 * al) with al by field.
  unfold cis. rewrite !cos_neg, !sin_neg, cos_0, sin_0. reflexivity.
Qed.
Lemma noise_0 : n4 0 + n4 1 + n4 2 + n4 3 = 0.
Proof. unfold n4, noise4. cbn [nth]. field. Qed.
Lemma noise_x : n4 0 * cos al + n4 1 * cos (al / 2) + n4 2 * 1 + n4 3 * cos al = 0.
Proof. unfold n4, noise4, k1, ks_. cbn [nth]. field. Qed.
Lemma noise_y : n4 0 * - sin al + n4 1 * - sin (al / 2) + n4 2 * 0 + n4 3 * sin al = 0.
Proof. unfold n4, noise4, kd_. cbn [nth]. field. exact sin_al. Qed.
Lemma noise_n1 : n4 1 <> 0.
Proof. unfold n4, noise4, k1. cbn [nth]. assert (H := cos_sin_one). lra. Qed.

Section Run.
Variables (mc tw : bool) (z a b c : C).
Definition data4 : list C := noisy (cos al) (cos (al / 2)) 1 (cos al) (- sin al) (- sin (al / 2)) 0 (sin al) (n4 0) (n4 1) (n4 2) (n4 3) z [a; b; c].
Definition d4 (i : nat) : C := nth i data4 (RtoC 0).
Definition nL : lib := noisyL B4 data4 [a; b; c].
Hypothesis Hreal : tw = false -> snd z = 0 /\ b = Cconj a /\ snd c = 0.
Definition nu : pyarr (list xr) := four_u (d4 0) (d4 1) (d4 2) (d4 3).
Definition nv : option (pyarr (list xr)) := four_v tw (d4 0) (d4 1) (d4 2) (d4 3).
Definition nsm : list (R * C) := four_sm (d4 0) (d4 1) (d4 2) (d4 3).
Lemma data_real : tw = false -> forall y, In y (zs (d4 0) (d4 1) (d4 2) (d4 3)) -> snd y = 0.
Proof.
  intros T. destruct (Hreal T) as (H1 & H2 & H3). intros y Hy. unfold zs, d4, data4, noisy, rows4 in Hy. cbn [map combine nth fst snd In] in Hy.
  subst b. destruct z as [z1 z2], a as [a1 a2], c as [c1 c2]. cbn [snd] in H1, H3. subst z2 c2.
  repeat (destruct Hy as [<-|Hy]; [unfold cdot, csum; cbn [map combine fold_right fst snd]; cbv [Cmult Cplus Cconj RtoC fst snd]; ring|]). destruct Hy.
Qed.
Lemma same_rows r q n : cs2cep_row r = Ok q -> exists e l, cs2cep_mat (repeat r (S n)) = Ok (e :: l).
Proof.
  intros E. unfold cs2cep_mat. cbn [repeat mapM]. rewrite E. cbn [bind]. induction n as [|n [? [? IH]]]; [cbn; eauto|].
  cbn [repeat mapM]. rewrite E. cbn [bind]. destruct (mapM cs2cep_row (repeat r n)); [cbn; eauto|discriminate].
Qed.
Lemma n_conf o e si W xmod xs : o_white o = true -> o_nrlzn o = 200%nat -> o_infer o = None -> W = ex_W ->
  exists cis, confidence nL o m2_sel (si_tin si) (si_t si) e (si_elor si) data4 xmod W B4 3 xs = Ok cis.
Proof.
  intros H1 H2 H3 ->. unfold confidence. rewrite H1, H3. cbn [bind].
  destruct (gram_inv (cos al) (cos (al / 2)) 1 (cos al) (- sin al) (- sin (al / 2)) 0 (sin al)) as [[X1 E1] [X2 E2]].
  { unfold area. assert (S := sin_al). assert (K := cos_sin_one).
    replace (cos al * 0 - 1 * - sin al + (1 * sin al - cos al * 0) + (cos al * - sin al - cos al * sin al)) with (2 * sin al * (1 - cos al)) by ring.
    apply Rmult_integral_contrapositive. split; [|lra]. apply Rmult_integral_contrapositive. split; [lra|exact S]. }
  assert (G : exists g, gammas nL B4 3 ex_W data4 xmod = Ok (Some g)).
  { unfold gammas. change (all_finite ex_W) with (Some [1; 1; 1; 1]). cbn [nL noisyL l_inv]. rewrite E1. cbn [bind]. rewrite E2. cbn [bind].
    destruct (Req_EM_T _ _) as [Z|_]; [exfalso; cbn in Z; lra|eauto]. }
  destruct G as [g ->]. cbn [bind].
  destruct (mapM_idx_ok (fun (k : nat) (x : cs) => conf_one nL o (Some g) None (length xs) k (x_Xu x) (x_Yu x) (x_Xv x) (x_Yv x)
    (x_g x) (x_theta x)) xs) with (i := 0%nat) as [ys ->].
  - intros i x. unfold conf_one. rewrite H2. destruct (o_linci o); [eauto|]. cbv zeta. generalize (block true g (length xs) i), (block false g (length xs) i). intros G H.
    destruct (o_twodim o).
    + cbn [n_uu n_vv n_uv option_map]. unfold mc2. cbn -[repeat cs2cep_mat e_maj e_min e_g e_theta mad196 cluster].
      destruct (same_rows [x_Xu x; x_Yu x; x_Xv x; x_Yv x] _ 199 eq_refl) as (e0 & l & ->). cbn [bind]. eauto.
    + cbn [n_uu option_map]. unfold mc1. cbn -[repeat cs2cep_mat e_maj e_min e_g e_theta mad196 cluster].
      destruct (same_rows [x_Xu x; x_Yu x] _ 199 eq_refl) as (e0 & l & ->). cbn [bind]. eauto.
  - cbn. eauto.
Qed.
Lemma n_diag o k : aligned k -> (exists E, energies k = Ok E) -> (exists N, noises k = Ok N) ->
  exists pe sn d, diag_stage nL o k = Ok (if o_nodiagn o then k else set_diag k (Some pe) (Some sn) (Some d)).
Proof. exact (diag_ok [] o k). Qed.

Lemma n_run : exists k, analysis nL ex_t nu nv (Some 45) (lin_opts mc) nsm k /\
  o_twodim (c_opt k) = tw /\ o_nodsatnone (c_opt k) = true /\ o_gwchnone (c_opt k) = true /\ o_notrend (c_opt k) = true /\
  c_reftime k = ex_tref /\ c_name k = ["M2"] /\ c_lind k = [47%nat] /\
  exists r, In r (rows k) /\ w_lind r = Some 47%nat /\ w_g r = Some (e_g (ellipse_of tw a b)) /\
    (tw = false -> w_A r = Some (Some (e_maj (ellipse_of tw a b)))).
Proof.
  assert (Hu : unique_keys (lin_opts mc)) by unique_tac.
  destruct (process_opts (lin_opts mc) tw) as [compat|] eqn:E; [|destruct mc, tw; discriminate].
  destruct (four_slv tw (d4 0) (d4 1) (d4 2) (d4 3) data_real) as (si & S1 & S2 & S3 & S4 & S5).
  destruct (read_opt (slv_opts tw (si_equi si) compat)) as [o|] eqn:E2; [|destruct mc, tw; injection E as <-; discriminate].
  destruct (used_options (lin_opts mc) tw (si_equi si) Hu compat o E E2) as
   (_ & _ & O2 & _ & _ & U2 & U3 & U4 & U5 & U6 & _ & U7 & _ & U8 & Ur & U9 & U10 & _ & _ & _ & (inf & U11 & U12) & U13 & U15).
  assert (P2 : oget compat "epoch" = PStr "python") by (destruct mc, tw; injection E as <-; reflexivity).
  assert (V2 : o_conf_int o = true) by (destruct mc; exact U2). assert (V4 : o_nodiagn o = false) by (destruct mc; exact U4).
  cbn in U3, U5, U6, U7, U8, Ur, U9, U10, U11. injection U11 as <-. injection U12 as U12.
  assert (O6 : o_infer o = None) by congruence. assert (O8 : o_ordercnstit o = PStr "frequency") by (destruct mc; cbn in U13; congruence).
  assert (Z4 : zs (d4 0) (d4 1) (d4 2) (d4 3) = data4) by reflexivity. rewrite Z4 in S4.
  assert (F : fit nL (si_t si) (si_u si) (si_v si) (si_tref si) (si_lor si) 45 o m2_sel = Ok (B4, data4, [a; b; c], ex_W)).
  { unfold fit. rewrite S2, S3, S5, inf_nil_basis by (assumption || congruence). cbn [bind]. rewrite finite_some, U10, S4. cbn [eq_str String.eqb Ascii.eqb Bool.eqb].
    rewrite ex_B_rows4. cbn [nL noisyL l_lstsq]. destruct (list_eq_dec _ B4 B4) as [_|N]; [|now exfalso]. destruct (list_eq_dec _ data4 data4) as [_|N]; [|now exfalso]. reflexivity. }
  assert (O11 : ut_cnstitsel ex_tref (xdiv (Fin (o_rmin o)) (Fin (24 * 4))) (o_cnstit o) (o_infer o) = Ok m2_sel) by (rewrite U5, O6; apply m2_select).
  assert (SL := sel_lens_ok _ _ _ _ _ O11).
  assert (A1 : forall c1, ci_stage nL o m2_sel si 45 B4 data4 [a; b; c] ex_W = Ok c1 -> aligned c1).
  { intros c1 H. refine (proj1 (ci_stage_aligned _ _ _ _ _ _ _ _ _ _ SL _ _ H)); [cbn; lia|reflexivity]. }
  assert (CS : exists cis, ci_stage nL o m2_sel si 45 B4 data4 [a; b; c] ex_W =
    Ok (set_ci (coef_core (si_tref si) (si_lor si) 45 o m2_sel [a; b; c] ex_W) (o_twodim o) cis)).
  { unfold ci_stage. rewrite V2. rewrite U6. cbn [s_nNR s_nR m2_sel ex_sel length Nat.add Nat.mul].
    edestruct n_conf as [cis ->]; [exact U9|exact U15|exact O6|reflexivity|]. cbn [bind]. eauto. }
  destruct CS as [cis C1]. assert (A := A1 _ C1). clear A1. set (core := coef_core _ _ _ _ _ _ _) in *. set (c1 := set_ci core (o_twodim o) cis) in *.
  destruct (n_diag o c1 A) as (pe & sn & d & C2).
  { unfold energies, c1, core. cbn. destruct (o_twodim o); cbn; eauto. }
  { unfold noises, c1, core. cbn. destruct (o_twodim o); cbn; eauto. }
  rewrite V4 in C2. set (c2 := set_diag c1 _ _ _) in *.
  assert (SB2 : aligned c2). { refine (proj1 (diag_stage_aligned _ _ _ _ A C2)). }
  assert (Hi : forall i, In i (l_argsort nL (map Fin (c_frq c2))) -> (i < length (c_name c2))%nat).
  { intros i H. apply (argsort_in []) in H. rewrite map_length in H. destruct SB2 as (K & _). lia. }
  destruct (apply_order_ok c2 _ SB2 Hi) as [k Hk]. exists k.
  assert (C3 : reorder nL c2 (o_ordercnstit o) = Ok k).
  { rewrite reorder_eq, O8. unfold order_stage. cbn [eq_str String.eqb Ascii.eqb Bool.eqb bind fst snd]. exact Hk. }
  assert (T2 : is2d nv = tw) by (unfold nv, four_v; destruct tw; reflexivity).
  assert (SV : solve nL ex_t nu nv (Some 45) (lin_opts mc) = Ok k).
  { rewrite <- P2 in S1. rewrite <- T2 in E, E2. rewrite <- S3, <- S5 in O11. exact (solve_intro nL _ _ _ _ _ _ _ _ _ _ _ _ _ _ _ _ E S1 E2 O11 F C1 C2 C3). }
  assert (SB := reorder_base _ _ _ _ C3). assert (SB1 := diag_stage_base _ _ _ _ C2). split.
  - constructor; auto.
    + apply noisy_shape.
    + exact (ex_perm []).
    + intros x Hx'.
      assert (HD : In "order_constit" (keys documented)) by (cbn; auto 20).
      assert (K := setting_val _ _ _ Hu HD Hx'). subst x. unfold sorted_order. cbn. auto.
    + exists (PStr "python"). split; [left; cbn; auto 20|]. apply four_samples. exact data_real.
    + discriminate.
  - rewrite (sb_opt _ _ SB), (sb_reftime _ _ SB), (sb_opt _ _ SB1), (sb_reftime _ _ SB1).
    unfold c1, core. cbn [set_ci coef_core c_opt c_reftime].
    repeat (split; [assumption|]).
    destruct (reorder_rows nL _ _ _ (ex_perm []) SB2 (or_intror (or_intror O8)) C3) as [RP NP].
    assert (LL := apply_order_rows _ _ _ Hk). destruct LL as (_ & Ab & _). split; [|split].
    + apply Permutation_length_1_inv. apply Permutation_sym. exact NP.
    + apply Permutation_length_1_inv. apply Permutation_sym. apply (perm_some _ _).
      rewrite <- (linds_rows k Ab). change [47%nat] with (c_lind c2). rewrite <- (linds_rows c2 SB2). now apply Permutation_map.
    + exists (crow_of c2 0). split.
      * apply (Permutation_in _ (Permutation_sym RP)). left. reflexivity.
      * split; [reflexivity|]. split; [cbn [crow_of w_g c2 set_diag c1 set_ci core coef_core c_g]; now rewrite O2|].
        intros T. cbn [crow_of w_A c2 set_diag c1 set_ci core coef_core c_A]. rewrite O2, T. reflexivity.
Qed.
End Run.
