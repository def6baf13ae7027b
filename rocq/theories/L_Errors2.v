(** Standard errors of a whole analysis: variances of one constituent from the inverse Gram matrices. *)
From Coq Require Import Lia Lra Permutation.
From Coquelicot Require Import Complex.
From Verif Require Import M_Base M_Bunch M_Lib M_Options M_Select M_Ellipse
  M_Robust M_Period M_Conf M_Diag M_Solve S_Errors L_Base L_Angle L_Model6 L_Model9 L_Gauss L_Errors.
Open Scope R_scope.

Lemma block_variances (gC gP : cmat) (x00 x01 x10 x11 y00 y01 y10 y11 f : C) (v sx sy : R) nc c :
  let d := (c + nc)%nat in
  cent gC c c = Cmult x00 (RtoC v) -> cent gC c d = Cmult x01 (RtoC v) -> cent gC d c = Cmult x10 (RtoC v) -> cent gC d d = Cmult x11 (RtoC v) ->
  cent gP c c = Cmult y00 f -> cent gP c d = Cmult y01 f -> cent gP d c = Cmult y10 f -> cent gP d d = Cmult y11 f ->
  x01 = Cconj x10 -> y01 = y10 ->
  Cplus (Cplus x00 x01) (Cplus x10 x11) = RtoC sx -> Cplus (Cplus y00 y01) (Cplus y10 y11) = RtoC sx ->
  Cminus (Cminus x00 x01) (Cminus x10 x11) = RtoC sy -> Cminus (Cminus y00 y01) (Cminus y10 y11) = RtoC (- sy) ->
  varXu (block true (gC, gP) nc c) (block true (gC, gP) nc c) = sx * ((v + fst f) / 2) /\
  varYu (block false (gC, gP) nc c) (block false (gC, gP) nc c) = sy * ((v + fst f) / 2) /\
  varXv (block false (gC, gP) nc c) (block false (gC, gP) nc c) = sx * ((v - fst f) / 2) /\
  varYv (block true (gC, gP) nc c) (block true (gC, gP) nc c) = sy * ((v - fst f) / 2).
Proof.
  cbv zeta. intros X1 X2 X3 X4 Y1 Y2 Y3 Y4 EX EY A1 A2 A3 A4.
  unfold varXu, varYu, varXv, varYv, block. cbn [fst snd]. rewrite X1, X2, X4, Y1, Y2, Y4. unfold re4. subst x01 y01.
  destruct x00 as [x00 x00'], x10 as [x10 x10'], x11 as [x11 x11'], y00 as [y00 y00'], y10 as [y10 y10'], y11 as [y11 y11'], f as [f f'].
  unfold Cminus, Cplus, Copp, Cmult, Cconj, RtoC in *. cbn [fst snd] in *.
  injection A1 as A1 A1'. injection A2 as A2 A2'. injection A3 as A3 A3'. injection A4 as A4 A4'.
  assert (E1 : sx = x00 + x11 + 2 * x10) by lra. assert (E2 : y00 = sx - y11 - 2 * y10) by lra.
  assert (E3 : y00' = - y11' - 2 * y10') by lra. assert (E4 : sy = x00 + x11 - 2 * x10) by lra.
  assert (E5 : sy = - (y00 + y11 - 2 * y10)) by lra. assert (E6 : y10' = 0) by lra. assert (E7 : y11' = - y00') by lra.
  repeat split.
  - replace (sx * ((v + f) / 2)) with (((x00 + x11 + 2 * x10) * v + (y00 + y11 + 2 * y10) * f) / 2) by (rewrite <- E1; rewrite E2; field).
    rewrite E7, E6. field.
  - replace (sy * ((v + f) / 2)) with (((x00 + x11 - 2 * x10) * v - (y00 + y11 - 2 * y10) * f) / 2) by (rewrite <- E4; replace (y00 + y11 - 2 * y10) with (- sy) by lra; field).
    rewrite E7, E6. field.
  - replace (sx * ((v - f) / 2)) with (((x00 + x11 + 2 * x10) * v - (y00 + y11 + 2 * y10) * f) / 2) by (rewrite <- E1; rewrite E2; field).
    rewrite E7, E6. field.
  - replace (sy * ((v - f) / 2)) with (((x00 + x11 - 2 * x10) * v + (y00 + y11 - 2 * y10) * f) / 2) by (rewrite <- E4; replace (y00 + y11 - 2 * y10) with (- sy) by lra; field).
    rewrite E7, E6. field.
Qed.

Lemma block_covariances (gC gP : cmat) (x00 x01 x10 x11 y00 y01 y10 y11 f : C) (v sx sy sxy : R) nc c :
  let d := (c + nc)%nat in
  cent gC c c = Cmult x00 (RtoC v) -> cent gC c d = Cmult x01 (RtoC v) -> cent gC d c = Cmult x10 (RtoC v) -> cent gC d d = Cmult x11 (RtoC v) ->
  cent gP c c = Cmult y00 f -> cent gP c d = Cmult y01 f -> cent gP d c = Cmult y10 f -> cent gP d d = Cmult y11 f ->
  x00 = Cconj x00 -> x01 = Cconj x10 -> y00 = x01 -> y01 = x00 -> y10 = x00 -> y11 = x10 -> x11 = x00 ->
  Cplus (Cplus x00 x01) (Cplus x10 x11) = RtoC sx -> Cminus (Cminus x00 x01) (Cminus x10 x11) = RtoC sy ->
  Cmult (0, -1) (Cconj (Cminus (Cplus x00 x01) (Cplus x10 x11))) = RtoC sxy ->
  covXuYu (block false (gC, gP) nc c) = sxy * ((v + fst f) / 2) /\
  covXvYv (block true (gC, gP) nc c) = sxy * ((v - fst f) / 2) /\
  covXuXv (block false (gC, gP) nc c) = sx * (snd f / 2) /\
  covXuYv (block true (gC, gP) nc c) = sxy * (snd f / 2) /\
  covYuXv (block false (gC, gP) nc c) = sxy * (snd f / 2) /\
  covYuYv (block true (gC, gP) nc c) = sy * (snd f / 2).
Proof.
  cbv zeta. intros X1 X2 X3 X4 Y1 Y2 Y3 Y4 E0 E1 E2 E3 E4 E5 E6 A1 A3 A5.
  unfold covXuYu, covXvYv, covXuXv, covXuYv, covYuXv, covYuYv, block. cbn [fst snd]. rewrite X1, X2, X3, X4, Y1, Y2, Y3, Y4. subst x01 y00 y01 y10 y11 x11.
  destruct x00 as [x00 x00'], x10 as [x10 x10'], f as [f f'].
  unfold Cminus, Cplus, Copp, Cmult, Cconj, RtoC in *. cbn [fst snd] in *.
  injection E0 as E0. injection A1 as A1 A1'. injection A3 as A3 A3'. injection A5 as A5 A5'.
  assert (Z : x00' = 0) by lra. assert (Z1 : sx = 2 * x00 + 2 * x10) by lra. assert (Z2 : sy = 2 * x00 - 2 * x10) by lra. assert (Z3 : sxy = 2 * x10') by lra.
  subst x00' sx sy sxy. repeat split; field.
Qed.

Definition tauX (nc c a : nat) : C := Cplus (kd c a) (kd (c + nc) a).
Definition tauY (nc c a : nat) : C := Cmult (0, -1) (Cminus (kd c a) (kd (c + nc) a)).

Lemma kd_swap nc c a : (c < nc)%nat -> kd c (swapP nc a) = kd (c + nc) a /\ kd (c + nc) (swapP nc a) = kd c a.
Proof.
  intros H. unfold kd, swapP. split; destruct (Nat.ltb_spec a nc), (Nat.ltb_spec a (nc + nc));
    repeat match goal with |- context [Nat.eqb ?x ?y] => destruct (Nat.eqb_spec x y) end; auto; lia.
Qed.
Lemma kd_conj i j : Cconj (kd i j) = kd i j. Proof. unfold kd. destruct (Nat.eqb i j); apply Cconj_R. Qed.
Lemma tauX_conj nc c a : (c < nc)%nat -> Cconj (tauX nc c (swapP nc a)) = tauX nc c a.
Proof. intros H. unfold tauX. destruct (kd_swap nc c a H) as [-> ->]. rewrite Cconj_plus, !kd_conj. apply C_eq; cbn; ring. Qed.
Lemma tauY_conj nc c a : (c < nc)%nat -> Cconj (tauY nc c (swapP nc a)) = tauY nc c a.
Proof.
  intros H. unfold tauY. destruct (kd_swap nc c a H) as [-> ->]. rewrite Cconj_mult. unfold Cminus. rewrite Cconj_plus.
  replace (Cconj (Copp (kd c a))) with (Copp (Cconj (kd c a))) by (apply C_eq; cbn; ring). rewrite !kd_conj.
  destruct (kd c a), (kd (c + nc) a). apply C_eq; cbn; ring.
Qed.

Lemma Sm_kd_r n i f : (i < n)%nat -> Sm n (fun a => Cmult (f a) (kd i a)) = f i.
Proof. intros H. rewrite <- (Sm_kd n i f H). apply Sm_ext. intros. apply C_eq; cbn; ring. Qed.

Lemma sum_tauX N nc c f : (c + nc < N)%nat -> Sm N (fun a => Cmult (f a) (tauX nc c a)) = Cplus (f c) (f (c + nc)%nat).
Proof.
  intros H. rewrite <- (Sm_kd_r N c f) by lia. rewrite <- (Sm_kd_r N (c + nc) f) by lia. rewrite <- Sm_plus. apply Sm_ext. intros a _.
  unfold tauX. apply C_eq; cbn; ring.
Qed.
Lemma sum_tauY N nc c f : (c + nc < N)%nat -> Sm N (fun a => Cmult (f a) (tauY nc c a)) = Cmult (0, -1) (Cminus (f c) (f (c + nc)%nat)).
Proof.
  intros H. rewrite <- (Sm_kd_r N c f) by lia. rewrite <- (Sm_kd_r N (c + nc) f) by lia. rewrite <- Sm_minus, <- Sm_l. apply Sm_ext. intros a _.
  unfold tauY. apply C_eq; cbn; ring.
Qed.
Lemma sum_tauX_c N nc c f : (c + nc < N)%nat -> Sm N (fun a => Cmult (Cconj (tauX nc c a)) (f a)) = Cplus (f c) (f (c + nc)%nat).
Proof.
  intros H. rewrite <- (sum_tauX N) by auto. apply Sm_ext. intros a _. unfold tauX. rewrite Cconj_plus, !kd_conj. apply C_eq; cbn; ring.
Qed.
Lemma sum_tauY_c N nc c f : (c + nc < N)%nat -> Sm N (fun a => Cmult (Cconj (tauY nc c a)) (f a)) = Cmult (0, 1) (Cminus (f c) (f (c + nc)%nat)).
Proof.
  intros H. transitivity (Cmult (RtoC (-1)) (Sm N (fun a => Cmult (f a) (tauY nc c a)))).
  - rewrite <- Sm_l. apply Sm_ext. intros a _. unfold tauY. rewrite Cconj_mult. unfold Cminus. rewrite Cconj_plus.
    replace (Cconj (Copp (kd (c + nc) a))) with (Copp (Cconj (kd (c + nc) a))) by (apply C_eq; cbn; ring). rewrite !kd_conj. apply C_eq; cbn; ring.
  - rewrite sum_tauY by auto. apply C_eq; cbn; ring.
Qed.

Lemma real_C z : Cconj z = z -> z = RtoC (fst z).
Proof. intros H. destruct z as [a b]. apply (f_equal snd) in H. cbn in *. unfold RtoC. f_equal. lra. Qed.

Section One.
Variables (n nc r c : nat) (b : nat -> nat -> C).
Notation N := (nc + nc + r)%nat.
Hypothesis Hc : (c < nc)%nat.
Hypothesis Hb : forall s a, (s < n)%nat -> (a < N)%nat -> Cconj (b s a) = b s (swapP nc a).
Notation M := (fun a a' => Sm n (fun s => Cmult (Cconj (b s a)) (b s a'))).
Notation T := (fun a a' => Sm n (fun s => Cmult (b s a) (b s a'))).
Variables (X Y : nat -> nat -> C).
Hypothesis HX : inv_of N M X.
Hypothesis HY : inv_of N T Y.
Notation phX := (phi N b X (tauX nc c)).
Notation phY := (phi N b X (tauY nc c)).
Notation d := (c + nc)%nat.

Lemma one_real s : (s < n)%nat -> phX s = RtoC (fst (phX s)) /\ phY s = RtoC (fst (phY s)).
Proof.
  intros Hs. split; apply real_C.
  - refine (phi_real n N b (swapP nc) (swapP_lt nc r) _ (swapP_sum nc r) X HX (tauX nc c) _ s Hs); auto.
    intros; now apply tauX_conj.
  - refine (phi_real n N b (swapP nc) (swapP_lt nc r) _ (swapP_sum nc r) X HX (tauY nc c) _ s Hs); auto.
    intros; now apply tauY_conj.
Qed.

Lemma one_sumX : exists sx, Sm n (fun s => Cmult (phX s) (phX s)) = RtoC sx /\
  Cplus (Cplus (X c c) (X c d)) (Cplus (X d c) (X d d)) = RtoC sx /\ Cplus (Cplus (Y c c) (Y c d)) (Cplus (Y d c) (Y d d)) = RtoC sx.
Proof.
  exists (fst (Sm n (fun s => Cmult (phX s) (phX s)))).
  assert (E : Sm n (fun s => Cmult (phX s) (phX s)) = RtoC (fst (Sm n (fun s => Cmult (phX s) (phX s))))).
  { apply real_C. rewrite Sm_conj. apply Sm_ext. intros s Hs. rewrite Cconj_mult. destruct (one_real s Hs) as [-> _]. now rewrite Cconj_R. }
  split; [exact E|]. rewrite <- E. clear E.
  assert (TC : forall a, (a < N)%nat -> Cconj (tauX nc c (swapP nc a)) = tauX nc c a) by (intros; now apply tauX_conj).
  rewrite (phi_phi n N b (swapP nc) (swapP_lt nc r) Hb (swapP_sum nc r) X HX (tauX nc c) TC).
  rewrite sum_tauX_c by lia.
  assert (Y1 := Y_tau n N b (swapP nc) (swapP_lt nc r) Hb (swapP_sum nc r) X Y HX HY (tauX nc c) TC c ltac:(lia)).
  assert (Y2 := Y_tau n N b (swapP nc) (swapP_lt nc r) Hb (swapP_sum nc r) X Y HX HY (tauX nc c) TC d ltac:(lia)).
  assert (G : forall a, Sm N (fun a' => Cmult (Y a a') (Cconj (tauX nc c a'))) = Cplus (Y a c) (Y a d)).
  { intros a. rewrite <- (sum_tauX N) by lia. apply Sm_ext. intros a' _. unfold tauX. now rewrite Cconj_plus, !kd_conj. }
  rewrite G in Y1, Y2. rewrite Y1, Y2. unfold yv. rewrite !sum_tauX by lia. auto.
Qed.

Lemma one_sumY : exists sy, Sm n (fun s => Cmult (phY s) (phY s)) = RtoC sy /\
  Cminus (Cminus (X c c) (X c d)) (Cminus (X d c) (X d d)) = RtoC sy /\ Cminus (Cminus (Y c c) (Y c d)) (Cminus (Y d c) (Y d d)) = RtoC (- sy).
Proof.
  exists (fst (Sm n (fun s => Cmult (phY s) (phY s)))).
  assert (E : Sm n (fun s => Cmult (phY s) (phY s)) = RtoC (fst (Sm n (fun s => Cmult (phY s) (phY s))))).
  { apply real_C. rewrite Sm_conj. apply Sm_ext. intros s Hs. rewrite Cconj_mult. destruct (one_real s Hs) as [_ ->]. now rewrite Cconj_R. }
  split; [exact E|]. 
  assert (RO : RtoC (- fst (Sm n (fun s => Cmult (phY s) (phY s)))) = Copp (RtoC (fst (Sm n (fun s => Cmult (phY s) (phY s)))))) by (apply C_eq; cbn; ring).
  rewrite RO, <- E. clear E RO.
  assert (TC : forall a, (a < N)%nat -> Cconj (tauY nc c (swapP nc a)) = tauY nc c a) by (intros; now apply tauY_conj).
  rewrite (phi_phi n N b (swapP nc) (swapP_lt nc r) Hb (swapP_sum nc r) X HX (tauY nc c) TC).
  rewrite sum_tauY_c by lia.
  assert (Y1 := Y_tau n N b (swapP nc) (swapP_lt nc r) Hb (swapP_sum nc r) X Y HX HY (tauY nc c) TC c ltac:(lia)).
  assert (Y2 := Y_tau n N b (swapP nc) (swapP_lt nc r) Hb (swapP_sum nc r) X Y HX HY (tauY nc c) TC d ltac:(lia)).
  assert (G : forall a, Sm N (fun a' => Cmult (Y a a') (Cconj (tauY nc c a'))) = Cmult (0, 1) (Cminus (Y a c) (Y a d))).
  { intros a. transitivity (Sm N (fun a' => Cmult (Cconj (tauY nc c a')) (Y a a'))).
    - apply Sm_ext. intros. apply C_eq; cbn; ring.
    - rewrite sum_tauY_c by lia. reflexivity. }
  rewrite G in Y1, Y2. split.
  - unfold yv. rewrite !sum_tauY by lia. apply C_eq; cbn; ring.
  - rewrite <- Y1, <- Y2. apply C_eq; cbn; ring.
Qed.

Lemma one_sym : X c d = Cconj (X d c) /\ Y c d = Y d c.
Proof.
  split.
  - apply (inv_hermitian N M X HX); try lia. intros i j _ _. rewrite Sm_conj. apply Sm_ext. intros s _. rewrite Cconj_mult, Cconj_conj. apply C_eq; cbn; ring.
  - apply (inv_symmetric N T Y HY); try lia. intros i j _ _. apply Sm_ext. intros s _. apply C_eq; cbn; ring.
Qed.

(** products of the two weights; the pseudo-covariance is the covariance with its columns exchanged *)
Lemma one_cross : exists sxy, Sm n (fun s => Cmult (phX s) (phY s)) = RtoC sxy /\
  Cmult (0, -1) (Cconj (Cminus (Cplus (X c c) (X c d)) (Cplus (X d c) (X d d)))) = RtoC sxy.
Proof.
  exists (fst (Sm n (fun s => Cmult (phX s) (phY s)))).
  assert (E : Sm n (fun s => Cmult (phX s) (phY s)) = RtoC (fst (Sm n (fun s => Cmult (phX s) (phY s))))).
  { apply real_C. rewrite Sm_conj. apply Sm_ext. intros s Hs. rewrite Cconj_mult. destruct (one_real s Hs) as [-> ->]. now rewrite !Cconj_R. }
  split; [exact E|]. rewrite <- E. clear E.
  assert (TC : forall a, (a < N)%nat -> Cconj (tauX nc c (swapP nc a)) = tauX nc c a) by (intros; now apply tauX_conj).
  rewrite (pair_phi n N b (swapP nc) (swapP_lt nc r) Hb (swapP_sum nc r) X HX (tauX nc c) TC phY (tauY nc c) (dual n N b X HX (tauY nc c))).
  rewrite sum_tauY by lia. unfold yv. rewrite !sum_tauX by lia. apply C_eq; cbn; ring.
Qed.

Lemma one_columns a : (a < N)%nat -> Y a c = X a d /\ Y a d = X a c.
Proof.
  intros Ha.
  assert (TX : forall a, (a < N)%nat -> Cconj (tauX nc c (swapP nc a)) = tauX nc c a) by (intros; now apply tauX_conj).
  assert (TY : forall a, (a < N)%nat -> Cconj (tauY nc c (swapP nc a)) = tauY nc c a) by (intros; now apply tauY_conj).
  assert (Y1 := Y_tau n N b (swapP nc) (swapP_lt nc r) Hb (swapP_sum nc r) X Y HX HY (tauX nc c) TX a Ha).
  assert (Y2 := Y_tau n N b (swapP nc) (swapP_lt nc r) Hb (swapP_sum nc r) X Y HX HY (tauY nc c) TY a Ha).
  assert (G1 : Sm N (fun a' => Cmult (Y a a') (Cconj (tauX nc c a'))) = Cplus (Y a c) (Y a d)).
  { rewrite <- (sum_tauX N) by lia. apply Sm_ext. intros a' _. unfold tauX. now rewrite Cconj_plus, !kd_conj. }
  assert (G2 : Sm N (fun a' => Cmult (Y a a') (Cconj (tauY nc c a'))) = Cmult (0, 1) (Cminus (Y a c) (Y a d))).
  { transitivity (Sm N (fun a' => Cmult (Cconj (tauY nc c a')) (Y a a'))).
    - apply Sm_ext. intros. apply C_eq; cbn; ring.
    - rewrite sum_tauY_c by lia. reflexivity. }
  rewrite G1 in Y1. rewrite G2 in Y2. unfold yv in Y1, Y2. rewrite sum_tauX in Y1 by lia. rewrite sum_tauY in Y2 by lia.
  destruct (Y a c) as [p p'], (Y a d) as [q q'], (X a c) as [x x'], (X a d) as [y y'].
  unfold Cminus, Cplus, Copp, Cmult in *. cbn [fst snd] in *. injection Y1 as H1 H2. injection Y2 as H3 H4.
  split; f_equal; lra.
Qed.

Lemma one_diag : X c c = Cconj (X c c).
Proof.
  apply (inv_hermitian N M X HX); try lia. intros i j _ _. rewrite Sm_conj. apply Sm_ext. intros s _. rewrite Cconj_mult, Cconj_conj. apply C_eq; cbn; ring.
Qed.
End One.
