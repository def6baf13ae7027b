(** Runs of solve without constituents: the mean of three samples, of these and one more, of these twice. *)
From Coq Require Import Lia Lra Permutation.
From Verif Require Import M_Base M_Lib M_Tables M_Const M_Options M_Time M_Slvinit M_Harmonics M_Select M_Ellipse
  M_Robust M_Period M_Conf M_Diag M_Solve M_Recon S_Dict S_Options S_Slv S_Order S_Basis S_Select S_Fit S_Ellipse S_Recon S_Model S_Perm S_Robust S_RobustKw S_Choice
  L_Base L_Options L_SolveInv L_OptSolve L_Slv L_Slv2 L_Tables L_Order L_Select L_Fit L_Align L_SelOrder L_Order2 L_Order3 L_Recon L_Example L_Example3
  L_Model L_Model2 L_Model11 L_Model15 L_Robust L_Robust2 L_Robust3 L_Robust5 L_Example13 L_Super L_Carry L_Choice L_Example21.
Open Scope R_scope.
Open Scope string_scope.

Definition ols_opts : dict pyval := one_opts (PStr "ols") talwar_kw.
Definition ols_run (t : pyarr tarray) (u : pyarr (list xr)) (sm : list (R * C)) (c : coef) (a : R) : Prop :=
  analysis colL t u None (Some 45) ols_opts sm c /\ approximate (c_opt c) = false /\ o_method (c_opt c) = PStr "ols" /\ o_notrend (c_opt c) = true /\
  o_twodim (c_opt c) = false /\ c_name c = [] /\ c_lind c = [] /\ c_reftime c = ex_tref /\ c_mean c = Some a.
Lemma mean_run t u sm si ts n ys a :
  slvinit (fun _ => None) t u None (Some 45) (PStr "python") = Ok si -> si_t si = ts -> si_tref si = ex_tref -> raw_data (si_u si) (si_v si) = ys ->
  samples (fun _ => None) (PStr "python") t u None sm ->
  (forall o, o_nodsatnone o = true -> o_gwchnone o = true -> o_notrend o = true -> o_infer o = None -> basis ts ex_tref (si_lor si) 45 o none_sel = Ok (map (map Some) (repeat [RtoC 1] n))) ->
  n <> O -> length ys = n -> sm <> [] -> fst (col_m (repeat [RtoC 1] n) ys) = a -> exists c, ols_run t u sm c a.
Proof.
  intros S1 S2 S3 S4 SMP BS Hn Hl NE Ea.
  assert (F : exists b r k g, l_lstsq colL (repeat [RtoC 1] n) ys PNone = Ok ([b], r, k, g) /\ fst b = a).
  { destruct (lstsq_X n ys PNone Hn Hl) as (b & F). exists b. do 3 eexists. split; [exact F|].
    cbn [l_lstsq colL] in F. unfold col_lstsq in F. destruct (forallb _ _ && _); [|discriminate]. assert (E := f_equal (fun q => match q with Ok (x :: _, _, _, _) => x | _ => RtoC 0 end) F). cbn in E. now rewrite <- E. }
  destruct F as (b & r & k & g & F & Eb).
  destruct (one_run (PStr "ols") talwar_kw t u sm si ts (repeat [RtoC 1] n) ys [b] (map (fun _ => Fin 1) ts) S1 S2 S3 S4 SMP BS
    ltac:(do 3 eexists; split; [exact F|reflexivity]) eq_refl NE) as (c & A & H1 & H2 & H3 & H4 & H5 & H6 & H7 & H8 & H9 & H10 & H11).
  exists c. unfold ols_run, approximate. rewrite H1. repeat (split; [first [exact A|assumption|reflexivity]|]). rewrite H11. cbn [nth]. now rewrite Eb.
Qed.
Lemma mean_model t u sm c a t' u' sm' c' a' : ols_run t u sm c a -> ols_run t' u' sm' c' a' -> same_model c c'.
Proof.
  intros (A & _ & _ & _ & _ & H8 & _ & H10 & _) (A' & _ & _ & _ & _ & H8' & _ & H10' & _).
  eapply agree_model; [exact A|exact A'| |reflexivity|congruence|rewrite H8, H8'; apply Permutation_refl].
  intros q Hq. cbn [In] in Hq. repeat (destruct Hq as [<-|Hq]; [eexists; split; (first [left; cbn; tauto | right; split; [cbn; intros K; repeat (destruct K as [K|K]; [discriminate|]); exact K|cbn; tauto]])|]). destruct Hq.
Qed.
Lemma mean_yields t u sm c a x : ols_run t u sm c a -> yields c x (RtoC a).
Proof.
  intros (A & _ & _ & N & T & Nm & Li & _ & Em). assert (Wf := analysis_wf _ _ _ _ _ _ _ _ A).
  assert (Es : map (e_of c x) (c_lind c) = map Some []) by now rewrite Li.
  destruct (recon_vals c x [] Wf Es) as (R1 & _ & _). cbv zeta in R1. split.
  - rewrite R1. f_equal. unfold bgC, hsum, mnC. rewrite N, T, Em. cbn. ring.
  - now rewrite T.
Qed.
Lemma mean_ident t u sm c a ts : ols_run t u sm c a -> ts <> [] -> identifiable c ts /\ NoDup (c_name c).
Proof. intros (A & _ & _ & N & T & Nm & Li & _ & Em) H. split; [now apply one_identifiable|]. rewrite Nm. constructor. Qed.

(** 0, 0, 1 at the days 0 1 4 *)
Lemma mean3 : exists c, ols_run t3 u3 sm3 c (1 / 3).
Proof.
  destruct three_slv as (si & S1 & S2 & S3 & S4 & S5).
  eapply (mean_run t3 u3 sm3 si ext3 3 y3); [exact S1|exact S2|exact S3|exact S4|exact three_samples|exact (three_basis (si_lor si))|discriminate|reflexivity|discriminate|].
  unfold col_m, colS, colA, y3, rsum. cbn. field.
Qed.
(** and 1/3 at the day 2 *)
Definition u4 : pyarr (list xr) := four_u (RtoC 0) (RtoC 0) (RtoC (1 / 3)) (RtoC 1).
Definition sm4 : list (R * C) := four_sm (RtoC 0) (RtoC 0) (RtoC (1 / 3)) (RtoC 1).
Lemma mean4 : exists c, ols_run ex_t u4 sm4 c (1 / 3).
Proof.
  assert (RF : false = false -> forall z, In z (zs (RtoC 0) (RtoC 0) (RtoC (1 / 3)) (RtoC 1)) -> snd z = 0).
  { intros _ z Hz. repeat (destruct Hz as [<-|Hz]; [reflexivity|]). destruct Hz. }
  destruct (four_slv false (RtoC 0) (RtoC 0) (RtoC (1 / 3)) (RtoC 1) RF) as (si & S1 & S2 & S3 & S4 & S5).
  eapply (mean_run ex_t u4 sm4 si ext 4 _ _ S1 S2 S3 S4 (four_samples false _ _ _ _ RF) (four_basis (si_lor si))); [discriminate|reflexivity|discriminate|].
  unfold col_m, colS, colA, rsum. cbn. field.
Qed.

(** six samples at the days 0 0 1 1 4 4 *)
Definition ext6 : list R := [0; 0; 1; 1; 4; 4].
Section Six.
Variables (y0 y1 y2 y3 y4 y5 : R).
Definition t6 : pyarr tarray := NdArr [6%nat] (TNum (map Fin ext6)) [].
Definition v6 : list R := [y0; y1; y2; y3; y4; y5].
Definition u6 : pyarr (list xr) := NdArr [6%nat] (map Fin v6) [].
Definition sm6 : list (R * C) := combine ext6 (map RtoC v6).
Lemma six_slv : exists si, slvinit (fun _ => None) t6 u6 None (Some 45) (PStr "python") = Ok si /\
  si_t si = ext6 /\ si_tref si = ex_tref /\ raw_data (si_u si) (si_v si) = map RtoC v6 /\ si_lor si = 4.
Proof.
  assert (P : ptp ext6 = Ok 4).
  { unfold ptp, ext6, rmax, rmin, fold_left. f_equal.
    rewrite (Rmax_right 0 0), (Rmax_right 0 1), (Rmax_right 1 1), (Rmax_right 1 4), (Rmax_right 4 4), (Rmin_left 0 0), (Rmin_left 0 1), (Rmin_left 0 1), (Rmin_left 0 4), (Rmin_left 0 4) by lra. lra. }
  unfold slvinit, t6, u6. replace (check_args _ _ _ _) with (Ok tt : res unit) by reflexivity. cbn [bind].
  replace (normalize_time _ _ _) with (Ok (map Fin ext6)) by reflexivity. cbn [bind]. unfold slv_core.
  replace (clean _ _ _) with (ext6, ext6, v6, @None (list R)) by reflexivity.
  destruct (equi_of ext6); rewrite P; cbn [bind]; eexists; (split; [reflexivity|]); cbn [si_t si_tref si_u si_v si_lor raw_data]; repeat split.
Qed.
Lemma six_samples : samples (fun _ => None) (PStr "python") t6 u6 None sm6.
Proof.
  unfold t6, u6. assert (E : sm6 = map (fun s => (fst s, RtoC (snd s))) (valid_scalar (map Fin ext6) (map Fin v6) [])) by reflexivity.
  rewrite E. apply scalar_samples; try reflexivity; split; auto.
Qed.
Lemma mean6 : exists c, ols_run t6 u6 sm6 c ((y0 + y1 + y2 + y3 + y4 + y5) / 6).
Proof.
  destruct six_slv as (si & S1 & S2 & S3 & S4 & S5).
  eapply (mean_run t6 u6 sm6 si ext6 6 _ _ S1 S2 S3 S4 six_samples); [|discriminate|reflexivity|discriminate|].
  - intros o H1 H2 H3 H4. unfold basis, bad_empty_index, flags_of. rewrite H3, H4. cbn [NodsatNone GwchNone]. rewrite H1, H2.
    cbn [andb negb bind]. rewrite andb_false_r. unfold ut_E. cbn [NodsatNone GwchNone andb].
    cbn [none_sel ex_sel s_NRfrq]. unfold ones, ext6. cbn [length repeat bcast map E_rows]. reflexivity.
  - unfold col_m, colS, colA, v6, rsum. cbn. field.
Qed.
End Six.
(** 1, 0, 0 at the days 0 1 4 *)
Definition u3' : pyarr (list xr) := NdArr [3%nat] (map Fin [1; 0; 0]) [].
Definition y3' : list C := map RtoC [1; 0; 0].
Definition sm3' : list (R * C) := combine ext3 y3'.
Lemma mean3' : exists c, ols_run t3 u3' sm3' c (1 / 3).
Proof.
  assert (exists si, slvinit (fun _ => None) t3 u3' None (Some 45) (PStr "python") = Ok si /\
    si_t si = ext3 /\ si_tref si = ex_tref /\ raw_data (si_u si) (si_v si) = y3' /\ si_lor si = 4) as (si & S1 & S2 & S3 & S4 & S5).
  { assert (P : ptp ext3 = Ok 4).
    { unfold ptp, ext3, rmax, rmin, fold_left. f_equal. rewrite (Rmax_right 0 1), (Rmax_right 1 4), (Rmin_left 0 1), (Rmin_left 0 4) by lra. lra. }
    unfold slvinit, t3, u3'. replace (check_args _ _ _ _) with (Ok tt : res unit) by reflexivity. cbn [bind].
    replace (normalize_time _ _ _) with (Ok (map Fin ext3)) by reflexivity. cbn [bind]. unfold slv_core.
    replace (clean _ _ _) with (ext3, ext3, [1; 0; 0], @None (list R)) by reflexivity.
    destruct (equi_of ext3); rewrite P; cbn [bind]; eexists; (split; [reflexivity|]); cbn [si_t si_tref si_u si_v si_lor raw_data]; repeat split. }
  assert (SM : samples (fun _ => None) (PStr "python") t3 u3' None sm3').
  { unfold t3, u3'. assert (E : sm3' = map (fun s => (fst s, RtoC (snd s))) (valid_scalar (map Fin ext3) (map Fin [1; 0; 0]) [])) by reflexivity.
    rewrite E. apply scalar_samples; try reflexivity; split; auto. }
  eapply (mean_run t3 u3' sm3' si ext3 3 y3'); [exact S1|exact S2|exact S3|exact S4|exact SM|exact (three_basis (si_lor si))|discriminate|reflexivity|discriminate|].
  unfold col_m, colS, colA, y3', rsum. cbn. field.
Qed.
(** the same mean *)
Lemma mean_same t u sm c a t' u' sm' c' : ols_run t u sm c a -> ols_run t' u' sm' c' a -> same_fit c c'.
Proof.
  intros A A'. assert (Y := fun x => mean_yields _ _ _ _ _ x A). assert (Y' := fun x => mean_yields _ _ _ _ _ x A').
  destruct A as (A & _ & _ & N & T & Nm & Li & _ & Em), A' as (A' & _ & _ & N' & T' & Nm' & Li' & _ & Em').
  split; [rewrite Nm, Nm'; apply Permutation_refl|]. split. { intros r r' Hr. unfold rows in Hr. rewrite Nm in Hr. destruct Hr. }
  split. { intros z. unfold mean_is. rewrite T, T', Em, Em'. tauto. }
  split; [congruence|]. intros x. destruct (Y x) as [Y1 _], (Y' x) as [Y2 _]. split; congruence.
Qed.
