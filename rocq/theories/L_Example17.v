(** Runs with one library on the same times: data, their sum, residuals and components. *)
From Coq Require Import QArith Qreals Lia Lra Permutation.
From Coquelicot Require Import Coquelicot.
From Verif Require Import M_Base M_Lib M_Tables M_Const M_Options M_Time M_Slvinit M_Harmonics M_Select M_Ellipse
  M_Robust M_Period M_Conf M_Diag M_Solve M_Recon S_Dict S_Options S_Slv S_Order S_Basis S_Select S_Fit S_Ellipse S_Recon S_Model S_Errors S_Super
  L_Base L_SolveInv L_OptSolve L_Select L_Fit L_Align L_SelOrder L_Example L_Core L_Basis L_Recon L_Model L_Model2 L_Model3 L_Model4 L_Model7 L_Model8 L_Model9 L_Model11 L_Model15
  L_Model6 L_Example3 L_Example4 L_Example5 L_Example7 L_Example8 L_Example13.
Open Scope R_scope.
Open Scope string_scope.
Notation B4 := (rows4 (cos al) (cos (al / 2)) 1 (cos al) (- sin al) (- sin (al / 2)) 0 (sin al)).

Definition add_q (p q : q4) : q4 :=
  (Cplus (fst p) (fst q), (Cplus (fst (fst (snd p))) (fst (fst (snd q))), Cplus (snd (fst (snd p))) (snd (fst (snd q))), Cplus (snd (snd p)) (snd (snd q)))).
(** noise alone, tide alone *)
Definition noise_q (q : q4) : q4 := (fst q, (RtoC 0, RtoC 0, RtoC 0)).
Definition tide_q (q : q4) : q4 := (RtoC 0, snd q).
(** eastward and northward parts *)
Definition half2 (x : R) : R := x / 2.
Definition east_q (q : q4) : q4 :=
  let a := fst (fst (snd q)) in let b := snd (fst (snd q)) in
  let p := (half2 (fst a + fst b), half2 (snd a - snd b)) in (RtoC (fst (fst q)), (p, Cconj p, RtoC (fst (snd (snd q))))).
Definition north_q (q : q4) : q4 :=
  let a := fst (fst (snd q)) in let b := snd (fst (snd q)) in
  let p := (half2 (snd a + snd b), half2 (fst b - fst a)) in (RtoC (snd (fst q)), (p, Cconj p, RtoC (snd (snd (snd q))))).

Ltac entry := unfold cdot; cbn [map combine fst snd csum fold_right]; apply injective_projections; cbv [Cplus Cmult Cconj RtoC half2 fst snd]; field.
Lemma dat_add p q : dat (add_q p q) = map (fun x => Cplus (fst x) (snd x)) (combine (dat p) (dat q)).
Proof.
  destruct p as [z [[a b] c]], q as [z' [[a' b'] c']]. unfold dat, add_q, data4, noisy, rows4. cbn [map combine fst snd].
  generalize (cos al) (cos (al / 2)) (sin al) (sin (al / 2)) (n4 0) (n4 1) (n4 2) (n4 3). intros.
  repeat (apply f_equal2; [entry|]). reflexivity.
Qed.
Lemma sum_q p q : summed (csm p) (csm q) (csm (add_q p q)).
Proof.
  split; [reflexivity|]. split; [reflexivity|]. unfold csm. 
  assert (E : forall k, map snd (combine ext (dat k)) = dat k) by reflexivity. rewrite !E. apply dat_add.
Qed.
Lemma split_q q : csm q = csm (add_q (noise_q q) (tide_q q)).
Proof.
  destruct q as [z [[a b] c]]. unfold csm, dat, add_q, noise_q, tide_q. cbn [fst snd].
  replace (Cplus z (RtoC 0)) with z by ring. now rewrite !Cplus_0_l.
Qed.
Lemma east_sm q : csm (east_q q) = east (csm q).
Proof.
  destruct q as [z [[a b] c]]. unfold csm, east, dat, east_q, data4, noisy, rows4, ext. cbn [map combine fst snd].
  generalize (cos al) (cos (al / 2)) (sin al) (sin (al / 2)) (n4 0) (n4 1) (n4 2) (n4 3). intros.
  repeat (apply f_equal2; [apply f_equal2; [reflexivity|entry]|]). reflexivity.
Qed.
Lemma north_sm q : csm (north_q q) = north (csm q).
Proof.
  destruct q as [z [[a b] c]]. unfold csm, north, dat, north_q, data4, noisy, rows4, ext. cbn [map combine fst snd].
  generalize (cos al) (cos (al / 2)) (sin al) (sin (al / 2)) (n4 0) (n4 1) (n4 2) (n4 3). intros.
  repeat (apply f_equal2; [apply f_equal2; [reflexivity|entry]|]). reflexivity.
Qed.
Lemma east_real q y : In y (dat (east_q q)) -> snd y = 0.
Proof. intros H. destruct q as [z [[a b] c]]. apply (data_real false (RtoC (fst z)) _ _ (RtoC (fst c)) (fun _ => conj eq_refl (conj eq_refl eq_refl)) eq_refl y H). Qed.
Lemma north_real q y : In y (dat (north_q q)) -> snd y = 0.
Proof. intros H. destruct q as [z [[a b] c]]. apply (data_real false (RtoC (snd z)) _ _ (RtoC (snd c)) (fun _ => conj eq_refl (conj eq_refl eq_refl)) eq_refl y H). Qed.

(** the components are the given data *)
Lemma dat_parts (k : q4) (f : C -> C) q : csm k = map (fun x => (fst x, f (snd x))) (csm q) -> map fst (dat k) = map (fun z => fst (f z)) (dat q).
Proof.
  intros H. assert (X : forall k, dat k = map snd (csm k)) by reflexivity. rewrite (X k), H, !map_map, (X q), map_map. reflexivity.
Qed.
Lemma cv_u q : cv true q = Some (cu (north_q q)).
Proof.
  unfold cv, cu. apply f_equal. apply f_equal3; [reflexivity| |reflexivity]. apply f_equal. symmetry. exact (dat_parts _ (fun z => RtoC (snd z)) _ (north_sm q)).
Qed.
Lemma cu_u q : cu (east_q q) = cu q.
Proof.
  unfold cu. apply f_equal3; [reflexivity| |reflexivity]. apply f_equal. exact (dat_parts _ (fun z => RtoC (fst z)) _ (east_sm q)).
Qed.

(** the reconstruction of the first analysis at its samples is the tide *)
Lemma first_fits wh l q c : analysis (casesL (q :: l)) five_t (cu q) (cv true q) (Some 45) (cw_opts wh) (csm q) c ->
  o_twodim (c_opt c) = true -> approximate (c_opt c) = false -> o_method (c_opt c) = PStr "ols" ->
  Forall (fun x => yields c (fst x) (snd x)) (csm (tide_q q)).
Proof.
  intros AN T NA OLS. assert (HS := an_sorted _ _ _ _ _ _ _ _ AN).
  destruct (analysis_run _ _ _ _ _ _ _ _ AN) as (_ & si & la & s & B & xraw & m & W & BH & S1 & S2 & S3).
  destruct (run_rows _ _ _ _ _ _ _ _ _ _ _ _ _ _ BH) as (_ & _ & Hl). destruct (Hl OLS) as (r & k & sg & E).
  assert (X : xraw = dat q) by (rewrite S2; reflexivity). rewrite X in E.
  assert (Z : B = B4 /\ m = sol q).
  { assert (EB := proj1 (cases_out _ _ _ _ _ E)). split; [exact EB|]. subst B. cbn [casesL l_lstsq find] in E.
    destruct (list_eq_dec _ B4 B4) as [_|N]; [|now exfalso]. unfold hit in E. destruct (list_eq_dec Cdec (dat q) (dat q)) as [_|N]; [|now exfalso].
    apply Ok_inj in E. now injection E as <- _ _ _. }
  destruct Z as [-> ->]. assert (P := paired _ _ _ _ _ _ _ _ _ _ _ _ _ _ BH _ S1).
  assert (OY := own_yields _ _ _ _ _ _ _ _ _ _ _ _ _ _ BH HS NA). rewrite T in OY.
  unfold csm, ext in *. unfold dat, data4, noisy, tide_q, rows4, sol in *. cbn [map combine fst snd] in *.
  inversion P as [|? ? ? ? P1 Q1]; subst. inversion Q1 as [|? ? ? ? P2 Q2]; subst. inversion Q2 as [|? ? ? ? P3 Q3]; subst. inversion Q3 as [|? ? ? ? P4 _]; subst.
  assert (V : forall x n, Cplus x (Cmult n (RtoC 0)) = x) by (intros; ring).
  clear - OY P1 P2 P3 P4 V. cbn [fst snd] in *. unfold vis1 in OY.
  apply Forall_cons; [cbn [fst snd]; rewrite V; exact (OY _ _ P1)|]. apply Forall_cons; [cbn [fst snd]; rewrite V; exact (OY _ _ P2)|].
  apply Forall_cons; [cbn [fst snd]; rewrite V; exact (OY _ _ P3)|]. apply Forall_cons; [cbn [fst snd]; rewrite V; exact (OY _ _ P4)|]. apply Forall_nil.
Qed.
Lemma residuals_of_parts c sa sb sc : summed sa sb sc -> Forall (fun x => yields c (fst x) (snd x)) sb -> residuals c sc (map snd sa).
Proof.
  intros (Ta & Tb & D) F. unfold residuals. revert sa sb Ta Tb D F.
  induction sc as [|x sc IH]; intros [|y sa] [|z sb] Ta Tb D F; try discriminate; cbn [map]; [constructor|].
  cbn [map combine fst snd] in *. injection Ta as Tx Ta. injection Tb as Ty Tb. injection D as D1 D2. apply Forall_cons_iff in F. destruct F as [F1 F2].
  constructor; [|eapply IH; eauto]. rewrite <- Ty, D1. replace (Cminus (Cplus (snd y) (snd z)) (snd y)) with (snd z) by ring. exact F1.
Qed.
Lemma noise_q_1 q : fst q <> RtoC 0 -> nth 1 (map snd (csm (noise_q q))) (RtoC 0) <> RtoC 0.
Proof.
  intros H X. apply H. unfold csm, dat, noise_q, data4, noisy, rows4, ext in X. cbn [map combine nth fst snd] in X.
  assert (N := noise_n1). revert N X. generalize (n4 1). intros n N X.
  assert (E : Cmult (RtoC n) (fst q) = RtoC 0).
  { rewrite <- X. unfold cdot. cbn [map combine fst snd csum fold_right]. ring. }
  destruct (fst q) as [x y]. assert (P := f_equal fst E). assert (Q := f_equal snd E). cbn in P, Q.
  apply injective_projections; cbn; apply (Rmult_eq_reg_l n); auto; lra.
Qed.
Lemma self_rival L t u v lat opts sm c : analysis L t u v lat opts sm c -> o_infer (c_opt c) = None -> rival c c.
Proof.
  intros AN H. constructor; try reflexivity; [exact (analysis_wf _ _ _ _ _ _ _ _ AN)|]. unfold ties. now rewrite H.
Qed.
