(** Rows with proportional rotary components. *)
From Coq Require Import Lia Lra Permutation.
From Verif Require Import M_Base M_Bunch M_Lib M_Tables M_Const M_Options M_Time M_Slvinit M_Harmonics M_Select M_Ellipse
  M_Robust M_Period M_Conf M_Diag M_Solve M_Recon S_Dict S_Options S_Order S_Basis S_Select S_Fit S_Ellipse S_Slv S_Recon S_Model
  L_Base L_Options L_SolveInv L_OptSolve L_Slv L_Slv2 L_Order L_Select L_Fit L_Align L_SelOrder L_Basis L_Angle L_Ellipse L_Recon L_Recon2 L_Recon3 L_Core
  L_Model L_Lsq L_Model2 L_Model3 L_Model4 L_Model5 L_Model6 L_Model7 L_Model8.
Open Scope R_scope.
Open Scope string_scope.

Lemma some_pair {A B} (a c : A) (b d : B) : Some (a, b) = Some (c, d) -> a = c /\ b = d.
Proof. intros H. inversion H. auto. Qed.
Lemma mod_cis r a : 0 <= r -> Cmod (Cmult (RtoC r) (cis a)) = r.
Proof. intros H. rewrite Cmod_mult, cis_mod, Cmod_R, Rabs_right by lra. ring. Qed.

Lemma same_range a b : same_angle 360 a b -> 0 <= a < 360 -> 0 <= b < 360 -> a = b.
Proof.
  intros [k E] Ha Hb. assert (k = 0%Z); [|subst k; lra].
  assert (IZR k < 1) by lra. assert (-1 < IZR k) by lra. change 1 with (IZR 1) in H. change (-1) with (IZR (-1)) in H0.
  apply lt_IZR in H. apply lt_IZR in H0. lia.
Qed.

Lemma scal_num k A g A' g' : 0 < k -> 0 <= A -> 0 <= A' ->
  Cmult (RtoC k) (Cmult (RtoC (A / 2)) (cis (rad (- g)))) = Cmult (RtoC (A' / 2)) (cis (rad (- g'))) ->
  A' = k * A /\ (A <> 0 -> same_angle 360 g' g).
Proof.
  intros Hk HA HA' H. rewrite Cmult_assoc, <- RtoC_mult in H.
  assert (E : k * (A / 2) = A' / 2).
  { assert (M := f_equal Cmod H). rewrite !mod_cis in M; auto; [lra|]. apply Rmult_le_pos; lra. }
  split; [lra|]. intros Hn. assert (0 < k * (A / 2)) by (apply Rmult_lt_0_compat; lra).
  apply polar_inj in H; [|auto|lra]. destruct H as [_ [j H]]. assert (P := PI_RGT_0).
  exists j. unfold rad in H. assert (H' : (- g) * PI = (- g' + 360 * IZR j) * PI) by lra. apply Rmult_eq_reg_r in H'; lra.
Qed.

Lemma vec_num k a b th g a' b' th' g' : 0 < k -> Rabs b <= a -> Rabs b' <= a' -> 0 <= th < 180 -> 0 <= th' < 180 ->
  Cmult (RtoC k) (Cmult (RtoC ((a + b) / 2)) (cis (rad (th - g)))) = Cmult (RtoC ((a' + b') / 2)) (cis (rad (th' - g'))) ->
  Cmult (RtoC k) (Cmult (RtoC ((a - b) / 2)) (cis (rad (th + g)))) = Cmult (RtoC ((a' - b') / 2)) (cis (rad (th' + g'))) ->
  a' = k * a /\ b' = k * b /\ (Rabs b < a -> th' = th /\ same_angle 360 g' g).
Proof.
  intros Hk Hb Hb' Ht Ht' H1 H2. rewrite Cmult_assoc, <- RtoC_mult in H1, H2.
  assert (B1 : 0 <= a + b /\ 0 <= a - b) by (unfold Rabs in Hb; destruct (Rcase_abs b); lra).
  assert (B2 : 0 <= a' + b' /\ 0 <= a' - b') by (unfold Rabs in Hb'; destruct (Rcase_abs b'); lra).
  assert (E1 : k * ((a + b) / 2) = (a' + b') / 2).
  { assert (M := f_equal Cmod H1). rewrite !mod_cis in M; [lra|lra|]. apply Rmult_le_pos; lra. }
  assert (E2 : k * ((a - b) / 2) = (a' - b') / 2).
  { assert (M := f_equal Cmod H2). rewrite !mod_cis in M; [lra|lra|]. apply Rmult_le_pos; lra. }
  split; [lra|]. split; [lra|]. intros Hn.
  assert (B3 : 0 < a + b /\ 0 < a - b) by (unfold Rabs in Hn; destruct (Rcase_abs b); lra).
  assert (0 < k * ((a + b) / 2)) by (apply Rmult_lt_0_compat; lra). assert (0 < k * ((a - b) / 2)) by (apply Rmult_lt_0_compat; lra).
  apply polar_inj in H1; [|auto|lra]. apply polar_inj in H2; [|auto|lra]. destruct H1 as [_ [i H1]], H2 as [_ [j H2]].
  assert (P := PI_RGT_0). unfold rad in *.
  assert (F1 : (th - g) * PI = (th' - g' + 360 * IZR i) * PI) by lra. apply Rmult_eq_reg_r in F1; [|lra].
  assert (F2 : (th + g) * PI = (th' + g' + 360 * IZR j) * PI) by lra. apply Rmult_eq_reg_r in F2; [|lra].
  assert (D : IZR (i + j) = 0).
  { assert (Q : IZR (i + j) = (th - th') / 180) by (rewrite plus_IZR; lra).
    assert (Q1 : IZR (i + j) < IZR 1) by lra. assert (Q2 : IZR (-1) < IZR (i + j)) by lra.
    apply lt_IZR in Q1. apply lt_IZR in Q2. replace (i + j)%Z with 0%Z by lia. reflexivity. }
  rewrite plus_IZR in D. split; [lra|]. exists i. lra.
Qed.

Lemma cis_half x : Cmult (RtoC (-1)) (cis (rad x)) = cis (rad (x + 180)).
Proof. rewrite rad_add. replace (rad 180) with PI by (unfold rad; field). unfold cis, Cmult, RtoC. rewrite neg_cos, neg_sin. cbn [fst snd]. f_equal; ring. Qed.
Lemma cis_half' x : Cmult (RtoC (-1)) (cis (rad x)) = cis (rad (x - 180)).
Proof. rewrite cis_half. apply cis_rad. exists 1%Z. lra. Qed.

(** the shape of the rows of well formed coefficients *)
Definition scalar_shape (r : crow) : Prop := exists a g, w_Lsmaj r = None /\ w_A r = Some (Some a) /\ w_g r = Some g.
Definition vector_shape (r : crow) : Prop := exists a b th g, w_Lsmaj r = Some (Some a) /\ w_Lsmin r = Some (Some b) /\ w_theta r = Some (Some th) /\ w_g r = Some g.

Lemma rotary_shape r pq : rotary r = Some pq -> if w_Lsmaj r then vector_shape r else scalar_shape r.
Proof.
  unfold rotary, vector_shape, scalar_shape. destruct (w_g r) as [g|] eqn:E1; [|discriminate].
  destruct (w_Lsmaj r) as [[a|]|] eqn:E2; [|discriminate|destruct (w_A r) as [[a|]|] eqn:E3; try discriminate; intros _; eauto].
  destruct (w_Lsmin r) as [[b|]|] eqn:E4; try discriminate. destruct (w_theta r) as [[th|]|] eqn:E5; try discriminate. intros _. eauto 10.
Qed.

Lemma row_scaled k r r' p q : 0 < k -> row_ranges r -> row_ranges r' -> w_name r' = w_name r -> w_lind r' = w_lind r ->
  (w_Lsmaj r = None <-> w_Lsmaj r' = None) ->
  rotary r = Some (p, q) -> rotary r' = Some (Cmult (RtoC k) p, Cmult (RtoC k) q) -> row_like k eq r r'.
Proof.
  intros Hk (G1 & A1 & B1 & T1) (G2 & A2 & B2 & T2) En El Es R1 R2. split; auto. split; auto.
  assert (Q1 := rotary_shape _ _ R1). assert (Q2 := rotary_shape _ _ R2).
  destruct (w_Lsmaj r) as [x|] eqn:E1, (w_Lsmaj r') as [x'|] eqn:E2; try (exfalso; destruct Es as [F1 F2]; (now discriminate F1) || now discriminate F2).
  - destruct Q1 as (a & b & th & g & M1 & M2 & M3 & M4), Q2 as (a' & b' & th' & g' & N1 & N2 & N3 & N4).
    unfold rotary in R1, R2. rewrite M1, M2, M3, M4 in R1. rewrite N1, N2, N3, N4 in R2. apply some_pair in R1, R2. destruct R1 as [<- <-], R2 as [R2 R3].
    rewrite E1 in M1. rewrite E2 in N1. injection M1 as ->. injection N1 as ->. rewrite M2, M3, M4.
    destruct (vec_num k a b th g a' b' th' g' Hk (B1 _ _ eq_refl M2) (B2 _ _ eq_refl N2) (T1 _ M3) (T2 _ N3) (eq_sym R2) (eq_sym R3)) as (-> & -> & H).
    exists th', g'. repeat (split; auto). + now apply H. + symmetry. apply same_range; auto. now apply H.
  - destruct Q1 as (a & g & M1 & M2 & M3), Q2 as (a' & g' & N1 & N2 & N3).
    unfold rotary in R1, R2. rewrite M1, M2, M3 in R1. rewrite N1, N2, N3 in R2. apply some_pair in R1, R2. destruct R1 as [<- <-], R2 as [R2 R3].
    rewrite M2, M3.
    destruct (scal_num k a g a' g' Hk (A1 _ M2) (A2 _ N2) (eq_sym R2)) as (-> & H).
    exists g'. repeat (split; auto). intros Hn. symmetry. apply same_range; auto.
Qed.

Lemma row_opposite r r' p q : row_ranges r -> row_ranges r' -> w_name r' = w_name r -> w_lind r' = w_lind r ->
  (w_Lsmaj r = None <-> w_Lsmaj r' = None) ->
  rotary r = Some (p, q) -> rotary r' = Some (Cmult (RtoC (-1)) p, Cmult (RtoC (-1)) q) -> row_like 1 opposite r r'.
Proof.
  intros (G1 & A1 & B1 & T1) (G2 & A2 & B2 & T2) En El Es R1 R2. split; auto. split; auto.
  assert (Q1 := rotary_shape _ _ R1). assert (Q2 := rotary_shape _ _ R2).
  destruct (w_Lsmaj r) as [x|] eqn:E1, (w_Lsmaj r') as [x'|] eqn:E2; try (exfalso; destruct Es as [F1 F2]; (now discriminate F1) || now discriminate F2).
  - destruct Q1 as (a & b & th & g & M1 & M2 & M3 & M4), Q2 as (a' & b' & th' & g' & N1 & N2 & N3 & N4).
    unfold rotary in R1, R2. rewrite M1, M2, M3, M4 in R1. rewrite N1, N2, N3, N4 in R2. apply some_pair in R1, R2. destruct R1 as [<- <-], R2 as [R2 R3].
    rewrite E1 in M1. rewrite E2 in N1. injection M1 as ->. injection N1 as ->. rewrite M2, M3, M4.
    destruct (vec_num 1 a b th (g + 180) a' b' th' g' Rlt_0_1 (B1 _ _ eq_refl M2) (B2 _ _ eq_refl N2) (T1 _ M3) (T2 _ N3)) as (-> & -> & H).
    + rewrite R2. replace (th - (g + 180)) with (th - g - 180) by ring. rewrite <- cis_half'. ring.
    + rewrite R3. replace (th + (g + 180)) with (th + g + 180) by ring. rewrite <- cis_half. ring.
    + exists th', g'. repeat (split; auto); now apply H.
  - destruct Q1 as (a & g & M1 & M2 & M3), Q2 as (a' & g' & N1 & N2 & N3).
    unfold rotary in R1, R2. rewrite M1, M2, M3 in R1. rewrite N1, N2, N3 in R2. apply some_pair in R1, R2. destruct R1 as [<- <-], R2 as [R2 R3].
    rewrite M2, M3.
    destruct (scal_num 1 a (g + 180) a' g' Rlt_0_1 (A1 _ M2) (A2 _ N2)) as (-> & H).
    + rewrite R2. replace (- (g + 180)) with (- g - 180) by ring. rewrite <- cis_half'. ring.
    + exists g'. repeat (split; auto).
Qed.

(** rows by rotary components *)
Definition turned (k : C) (t : string * nat * (C * C)) : string * nat * (C * C) := (fst t, (Cmult k (fst (snd t)), Cmult k (snd (snd t)))).

Lemma rows_Lsmaj c r : well_formed c -> In r (rows c) -> (w_Lsmaj r = None <-> o_twodim (c_opt c) = false).
Proof.
  intros Wf H. apply in_map_iff in H. destruct H as (i & <- & _). unfold crow_of; cbn [w_Lsmaj].
  destruct (o_twodim (c_opt c)) eqn:E.
  - destruct (wf_2d _ Wf E) as ((a & ->) & _). cbn. split; discriminate.
  - destruct (wf_1d _ Wf E) as (-> & _). cbn. split; auto.
Qed.

Lemma rows_turned k c c' r : well_formed c -> well_formed c' ->
  Permutation (triples c') (map (turned k) (triples c)) -> In r (rows c) ->
  exists r' p q, In r' (rows c') /\ w_name r' = w_name r /\ w_lind r' = w_lind r /\ rotary r = Some (p, q) /\ rotary r' = Some (Cmult k p, Cmult k q).
Proof.
  intros W W' P Hr. apply (in_map triple) in Hr. rewrite triples_rows in Hr by assumption. apply in_map_iff in Hr.
  destruct Hr as ([[n i] [p q]] & E & Ht). unfold triple in E. cbn [fst snd] in E. injection E as E1 E2 E3.
  apply (in_map (turned k)) in Ht. apply (Permutation_in _ (Permutation_sym P)) in Ht. unfold turned in Ht. cbn [fst snd] in Ht.
  apply (in_map (fun t => (Some (fst (fst t)), Some (snd (fst t)), Some (snd t)))) in Ht. rewrite <- triples_rows in Ht by assumption.
  apply in_map_iff in Ht. destruct Ht as (r' & E & Hr'). unfold triple in E. cbn [fst snd] in E. injection E as F1 F2 F3.
  exists r', p, q. repeat split; auto; congruence.
Qed.
