(** Ingredients for a run with coloured noise and Monte-Carlo intervals: a decomposition of 2 by 2 matrices and the
    covariances of a record that is symmetric about its centre. *)
From Coq Require Import Lia Lra Permutation.
From Coquelicot Require Import Coquelicot.
From Verif Require Import M_Base M_Lib M_Select M_Ellipse M_Robust M_Conf S_Fit S_Conf S_Errors S_Sampled
  L_Base L_Select L_Angle L_Conf L_Conf2 L_Conf6 L_Errors L_Example L_Example7 L_Sampled L_LombEx.
Open Scope R_scope.

(** ** singular values of a symmetric 2 by 2 matrix *)
Definition sg (x : R) : R := if Rle_dec 0 x then 1 else -1.
Lemma sg_abs x : sg x * Rabs x = x.
Proof. unfold sg. destruct (Rle_dec 0 x); [rewrite Rabs_pos_eq by lra|rewrite Rabs_left by lra]; ring. Qed.
Lemma sg_sq x : sg x * sg x = 1. Proof. unfold sg. destruct (Rle_dec 0 x); ring. Qed.
(** eigenvectors (x, y) and (-y, x) of length 1, eigenvalues l and k *)
Definition svd_of (x y l k : R) : rmat * list R * rmat :=
  ([[sg l * x; - (sg k * y)]; [sg l * y; sg k * x]], [Rabs l; Rabs k], [[x; y]; [- y; x]]).
Definition sym_svd (B : rmat) : res (rmat * list R * rmat) :=
  match B with
  | [[a; b]; [b'; d]] =>
      if Req_EM_T b b' then
        if Req_EM_T b 0 then Ok (svd_of 1 0 a d)
        else let p := (d - a) / 2 + sqrt (((d - a) / 2) ^ 2 + b ^ 2) in let n := sqrt (b ^ 2 + p ^ 2) in
          Ok (svd_of (b / n) (p / n) (a + p) (d - p))
      else Err LinAlgError
  | _ => Ok (B, map (fun _ => 0) B, B)
  end.
Lemma svd_of_ok x y l k a b d : x ^ 2 + y ^ 2 = 1 -> a = l * x ^ 2 + k * y ^ 2 -> b = (l - k) * (x * y) -> d = l * y ^ 2 + k * x ^ 2 ->
  let '(U, s, V) := svd_of x y l k in decomposes 2 [[a; b]; [b; d]] U s V /\ forall i, 0 <= nth i s 0.
Proof.
  intros H -> -> ->. unfold svd_of. split; [|intros [|[|[|i]]]; cbn; try apply Rabs_pos; lra].
  assert (A1 := sg_abs l). assert (A2 := sg_abs k). assert (Q1 := sg_sq l). assert (Q2 := sg_sq k).
  repeat split.
  - intros i j Hi Hj. destruct i as [|[|]]; [| |lia]; destruct j as [|[|]]; try lia; unfold entry_of; cbn [nsum nth].
    + transitivity ((sg l * Rabs l) * x ^ 2 + (sg k * Rabs k) * y ^ 2); [rewrite A1, A2; ring|ring].
    + transitivity ((sg l * Rabs l - sg k * Rabs k) * (x * y)); [rewrite A1, A2; ring|ring].
    + transitivity ((sg l * Rabs l - sg k * Rabs k) * (x * y)); [rewrite A1, A2; ring|ring].
    + transitivity ((sg l * Rabs l) * y ^ 2 + (sg k * Rabs k) * x ^ 2); [rewrite A1, A2; ring|ring].
  - intros i j Hi Hj. destruct i as [|[|]]; [| |lia]; destruct j as [|[|]]; try lia; unfold entry_of, delta; cbn [nsum nth Nat.eqb].
    + transitivity ((sg l * sg l) * (x ^ 2 + y ^ 2)); [ring|rewrite Q1, H; ring].
    + ring.
    + ring.
    + transitivity ((sg k * sg k) * (x ^ 2 + y ^ 2)); [ring|rewrite Q2, H; ring].
  - intros i j Hi Hj. destruct i as [|[|]]; [| |lia]; destruct j as [|[|]]; try lia; unfold entry_of, delta; cbn [nsum nth Nat.eqb]; lra.
Qed.
Lemma sym_svd_exact B U s V : square 2 B -> sym_svd B = Ok (U, s, V) -> decomposes 2 B U s V /\ forall k, 0 <= nth k s 0.
Proof.
  intros [H1 H2]. destruct B as [|r0 [|r1 [|]]]; try discriminate. inversion H2 as [|? ? A H3]; subst. inversion H3 as [|? ? A' _]; subst.
  destruct r0 as [|a [|b [|]]]; try discriminate. destruct r1 as [|b' [|d [|]]]; try discriminate. clear.
  cbn [sym_svd]. destruct (Req_EM_T b b') as [<-|]; [|discriminate]. destruct (Req_EM_T b 0) as [->|NB]; intros E; apply Ok_inj in E.
  - assert (K := svd_of_ok 1 0 a d a 0 d). rewrite E in K. apply K; ring.
  - set (p := (d - a) / 2 + sqrt (((d - a) / 2) ^ 2 + b ^ 2)) in *. set (n := sqrt (b ^ 2 + p ^ 2)) in *.
    assert (B2 : 0 < b ^ 2) by (apply pow2_gt_0; exact NB). assert (P2 := pow2_ge_0 p).
    assert (N : n ^ 2 = b ^ 2 + p ^ 2) by (unfold n; apply pow2_sqrt; lra).
    assert (NN : n <> 0) by (intros Z; rewrite Z in N; lra).
    assert (Q : p ^ 2 = b ^ 2 + (d - a) * p).
    { assert (SS : sqrt (((d - a) / 2) ^ 2 + b ^ 2) ^ 2 = ((d - a) / 2) ^ 2 + b ^ 2) by (apply pow2_sqrt; assert (G := pow2_ge_0 ((d - a) / 2)); lra).
      unfold p. set (q := sqrt (((d - a) / 2) ^ 2 + b ^ 2)) in *. clearbody q. nra. }
    clearbody p n. assert (K := svd_of_ok (b / n) (p / n) (a + p) (d - p) a b d). rewrite E in K.
    assert (G : forall e, e = (b ^ 2 + p ^ 2) / n ^ 2 -> e = 1) by (intros e ->; rewrite <- N; field; exact NN).
    apply K.
    + apply G. field. exact NN.
    + apply (Rmult_eq_reg_r (n ^ 2)); [|apply pow_nonzero, NN]. transitivity ((a + p) * b ^ 2 + (d - p) * p ^ 2); [rewrite N|field; exact NN].
      transitivity (a * (b ^ 2 + p ^ 2) + p * (b ^ 2 + (d - a) * p - p ^ 2)); [rewrite Q; ring|ring].
    + apply (Rmult_eq_reg_r (n ^ 2)); [|apply pow_nonzero, NN]. transitivity ((a + p - (d - p)) * (b * p)); [rewrite N|field; exact NN].
      transitivity (b * (b ^ 2 + p ^ 2) - b * (b ^ 2 + (d - a) * p - p ^ 2)); [rewrite Q; ring|ring].
    + apply (Rmult_eq_reg_r (n ^ 2)); [|apply pow_nonzero, NN]. transitivity ((a + p) * p ^ 2 + (d - p) * b ^ 2); [rewrite N|field; exact NN].
      transitivity (d * (b ^ 2 + p ^ 2) - p * (b ^ 2 + (d - a) * p - p ^ 2)); [rewrite Q; ring|ring].
Qed.

Definition hourL (B0 : cmat) (x0 m0 : list C) : lib :=
  {| l_parse := fun _ => None; l_lstsq := l_lstsq (noisyL B0 x0 m0); l_pinv := fun X => Ok X; l_inv := inv3;
     l_svd := sym_svd; l_eigvals := fun M => Ok (map (fun _ => RtoC 0) M);
     l_is_PD := fun _ => true; l_spacing := fun _ => 0;
     l_mvn := fun _ m _ n => Ok (repeat m n); l_lomb := fun t x f => map (power_at t x) f;
     l_argsort := ins_argsort |}.
Lemma hour_svd B0 x0 m0 : svd_exact (hourL B0 x0 m0) 2.
Proof. intros B U s V. apply sym_svd_exact. Qed.
Lemma hour_mvn B0 x0 m0 : mvn_shape (hourL B0 x0 m0).
Proof. exact (noisy_mvn B0 x0 m0). Qed.
Lemma hour_inv B0 x0 m0 : inv_exact (hourL B0 x0 m0).
Proof. exact (noisy_inv B0 x0 m0). Qed.

Lemma sym_svd_ok n A : exists r, sym_svd (symm n A) = Ok r.
Proof.
  unfold symm, mk_mat. destruct n as [|[|[|n]]]; cbn [seq map]; [cbn; eauto|cbn; eauto| |].
  - cbn [sym_svd]. destruct (Req_EM_T _ _) as [_|N]; [destruct (Req_EM_T _ _); eauto|]. exfalso. apply N. field.
  - destruct n; cbn [seq map sym_svd]; eauto.
Qed.
Lemma hour_nearest B0 x0 m0 n A : exists r, nearestSPD (hourL B0 x0 m0) n A = Ok r.
Proof.
  unfold nearestSPD. cbn [hourL l_svd]. destruct (sym_svd_ok n A) as [[[U s] V] ->]. cbn [bind]. cbv zeta.
  match goal with |- context [spd_loop _ _ _ _ ?M _] => generalize M end. intros M.
  cbn [spd_loop Nat.eqb orb hourL l_eigvals bind Nat.ltb Nat.leb l_is_PD negb]. eauto.
Qed.

(** ** covariances of M2 for four times that are symmetric about the reference time *)
Section Rows.
Variables (c1 c3 s1 s3 : R) (z a b c : C).
Hypothesis U1 : c1 ^ 2 + s1 ^ 2 = 1.
Hypothesis U3 : c3 ^ 2 + s3 ^ 2 = 1.
Hypothesis NS : s1 <> 0.
Hypothesis NC : c1 <> c3.
Notation B := (rows4 c3 c1 c1 c3 (- s3) (- s1) s1 s3).
Notation data := (noisy c3 c1 c1 c3 (- s3) (- s1) s1 s3 (- s1) s3 (- s3) s1 z [a; b; c]).
Notation L := (hourL B data [a; b; c]).
Definition xmod4 : list C := cmatvec B [a; b; c].
Definition nn : R := 2 * (s1 ^ 2 + s3 ^ 2).
Definition pp : R := 2 * (c1 ^ 2 - s1 ^ 2) + 2 * (c3 ^ 2 - s3 ^ 2).
Definition qq : R := 2 * (c1 + c3).
Definition dd : R := (4 - pp) * (16 + 4 * pp - 2 * qq ^ 2).

Lemma gram_C : gram (cconj_mat B) B [1; 1; 1; 1] 3 = [[RtoC 4; RtoC pp; RtoC qq]; [RtoC pp; RtoC 4; RtoC qq]; [RtoC qq; RtoC qq; RtoC 4]].
Proof.
  unfold gram, rows4, cconj_mat, pp, qq. cbn [map combine seq nth csum fold_right fst snd].
  assert (E1 : c1 * c1 = 1 - s1 * s1) by lra. assert (E3 : c3 * c3 = 1 - s3 * s3) by lra.
  repeat (apply f_equal2; [repeat (apply f_equal2; [apply C_eq; unfold Cmult, Cplus, Cconj, RtoC; cbn [fst snd]; try ring; nra|]); reflexivity|]). reflexivity.
Qed.
Lemma gram_P : gram B B [1; 1; 1; 1] 3 = [[RtoC pp; RtoC 4; RtoC qq]; [RtoC 4; RtoC pp; RtoC qq]; [RtoC qq; RtoC qq; RtoC 4]].
Proof.
  unfold gram, rows4, cconj_mat, pp, qq. cbn [map combine seq nth csum fold_right fst snd].
  assert (E1 : c1 * c1 = 1 - s1 * s1) by lra. assert (E3 : c3 * c3 = 1 - s3 * s3) by lra.
  repeat (apply f_equal2; [repeat (apply f_equal2; [apply C_eq; unfold Cmult, Cplus, Cconj, RtoC; cbn [fst snd]; try ring; nra|]); reflexivity|]). reflexivity.
Qed.
Lemma nn_pos : 0 < nn.
Proof. unfold nn. assert (0 < s1 ^ 2) by now apply pow2_gt_0. assert (G := pow2_ge_0 s3). lra. Qed.

Lemma wdot4 f0 f1 f2 f3 g0 g1 g2 g3 : wdot [f0; f1; f2; f3] [g0; g1; g2; g3] [1; 1; 1; 1] =
  Cplus (Cmult f0 g0) (Cplus (Cmult f1 g1) (Cplus (Cmult f2 g2) (Cmult f3 g3))).
Proof. unfold wdot. cbn [map combine csum fold_right fst snd]. ring. Qed.
Lemma cdot3 x y m0 m1 m2 : cdot [x; y; RtoC 1] [m0; m1; m2] = Cplus (Cmult x m0) (Cplus (Cmult y m1) m2).
Proof. unfold cdot. cbn [map combine csum fold_right fst snd]. ring. Qed.
Notation e1 := ((c1, s1) : C).
Notation e3 := ((c3, s3) : C).
Lemma cj x y : Cconj (x, - y) = (x, y) :> C. Proof. unfold Cconj. cbn. now rewrite Ropp_involutive. Qed.
Lemma jc x y : (x, - y) = Cconj (x, y) :> C. Proof. reflexivity. Qed.
Definition ff (e e' : C) : C := Cplus (Cmult e a) (Cplus (Cmult e' b) c).
Lemma xmod_val : xmod4 = [ff (Cconj e3) e3; ff (Cconj e1) e1; ff e1 (Cconj e1); ff e3 (Cconj e3)].
Proof. unfold xmod4, rows4, cmatvec. cbn [map]. rewrite !cdot3, !cj, !jc. reflexivity. Qed.
Lemma data_val : data = [Cplus (ff (Cconj e3) e3) (Cmult (RtoC (- s1)) z); Cplus (ff (Cconj e1) e1) (Cmult (RtoC s3) z);
  Cplus (ff e1 (Cconj e1)) (Cmult (RtoC (- s3)) z); Cplus (ff e3 (Cconj e3)) (Cmult (RtoC s1) z)].
Proof. unfold noisy, rows4. cbn [map combine fst snd]. rewrite !cdot3, !cj, !jc. reflexivity. Qed.
Lemma split_sum (w x0 x1 x2 x3 : C) (r0 r1 r2 r3 : R) :
  Cplus (Cmult (Cmult (RtoC r0) w) x0) (Cplus (Cmult (Cmult (RtoC r1) w) x1) (Cplus (Cmult (Cmult (RtoC r2) w) x2) (Cmult (Cmult (RtoC r3) w) x3))) =
  Cmult w (Cplus (Cmult (RtoC r0) x0) (Cplus (Cmult (RtoC r1) x1) (Cplus (Cmult (RtoC r2) x2) (Cmult (RtoC r3) x3)))).
Proof. ring. Qed.
Lemma ortho4 : Cplus (Cmult (RtoC (- s1)) (ff (Cconj e3) e3)) (Cplus (Cmult (RtoC s3) (ff (Cconj e1) e1)) (Cplus (Cmult (RtoC (- s3)) (ff e1 (Cconj e1))) (Cmult (RtoC s1) (ff e3 (Cconj e3))))) = RtoC 0.
Proof.
  unfold ff. transitivity (Cplus (Cmult (Cminus a b) (Cminus (Cmult (RtoC s1) (Cminus e3 (Cconj e3))) (Cmult (RtoC s3) (Cminus e1 (Cconj e1))))) (RtoC 0)).
  - replace (RtoC (- s1)) with (Copp (RtoC s1)) by (apply C_eq; cbn; ring). replace (RtoC (- s3)) with (Copp (RtoC s3)) by (apply C_eq; cbn; ring). ring.
  - replace (Cminus (Cmult (RtoC s1) (Cminus e3 (Cconj e3))) (Cmult (RtoC s3) (Cminus e1 (Cconj e1)))) with (RtoC 0); [ring|].
    apply C_eq; unfold Cminus, Cmult, Cplus, Copp, Cconj, RtoC; cbn [fst snd]; ring.
Qed.
(** [h] is the identity or the conjugation *)
Lemma res_sum (h : C -> C) (w : C) : (forall x y, h (Cplus x (Cmult (RtoC y) z)) = Cplus (h x) (Cmult (RtoC y) w)) ->
  Cminus (wdot (map h data) data [1; 1; 1; 1]) (wdot (map h xmod4) data [1; 1; 1; 1]) = Cmult (RtoC nn) (Cmult w z).
Proof.
  intros H. rewrite data_val, xmod_val. cbn [map]. rewrite !wdot4, !H.
  assert (O := ortho4). revert O. generalize (ff (Cconj e3) e3), (ff (Cconj e1) e1), (ff e1 (Cconj e1)), (ff e3 (Cconj e3)). intros f0 f1 f2 f3 O.
  generalize (h f0), (h f1), (h f2), (h f3). intros h0 h1 h2 h3.
  transitivity (Cplus (Cmult w (Cplus (Cmult (RtoC (- s1)) f0) (Cplus (Cmult (RtoC s3) f1) (Cplus (Cmult (RtoC (- s3)) f2) (Cmult (RtoC s1) f3)))))
    (Cmult (Cplus (Cmult (RtoC (- s1)) (RtoC (- s1))) (Cplus (Cmult (RtoC s3) (RtoC s3)) (Cplus (Cmult (RtoC (- s3)) (RtoC (- s3))) (Cmult (RtoC s1) (RtoC s1))))) (Cmult w z))); [ring|].
  rewrite O. replace (Cplus (Cmult (RtoC (- s1)) _) _) with (RtoC nn); [ring|]. unfold nn. apply C_eq; unfold Cmult, Cplus, RtoC; cbn [fst snd]; ring.
Qed.
Lemma res_C : Cminus (wdot (map Cconj data) data [1; 1; 1; 1]) (wdot (map Cconj xmod4) data [1; 1; 1; 1]) = RtoC (nn * (fst z ^ 2 + snd z ^ 2)).
Proof.
  rewrite (res_sum Cconj (Cconj z)).
  - destruct z as [z1 z2]. apply C_eq; unfold Cmult, Cconj, RtoC; cbn [fst snd]; ring.
  - intros [x1 x2] y. destruct z as [z1 z2]. apply C_eq; unfold Cmult, Cplus, Cconj, RtoC; cbn [fst snd]; ring.
Qed.
Lemma res_P : Cminus (wdot data data [1; 1; 1; 1]) (wdot xmod4 data [1; 1; 1; 1]) = Cmult (RtoC nn) (Cmult z z).
Proof. assert (K := res_sum (fun x => x) z). rewrite !map_id in K. apply K. reflexivity. Qed.

Lemma dd_pos : 0 < dd.
Proof.
  assert (N := nn_pos). assert (K : 0 < (c1 - c3) ^ 2) by (apply pow2_gt_0; lra).
  replace dd with (2 * nn * (8 * (c1 - c3) ^ 2)); [nra|]. unfold dd, pp, qq, nn.
  replace (s1 ^ 2) with (1 - c1 ^ 2) by lra. replace (s3 ^ 2) with (1 - c3 ^ 2) by lra. ring.
Qed.
Lemma q_lt : 0 < 16 - qq ^ 2.
Proof.
  assert (0 < s1 ^ 2) by now apply pow2_gt_0. assert (G := pow2_ge_0 s3). unfold qq.
  assert (K := pow2_ge_0 (c1 - c3)). nra.
Qed.
Definition alp : R := (16 - qq ^ 2) / dd.
Definition bet : R := (qq ^ 2 - 4 * pp) / dd.
Lemma alp_pos : 0 < alp. Proof. apply Rdiv_lt_0_compat; [apply q_lt|apply dd_pos]. Qed.
Lemma Cdiv_R x y : y <> 0 -> Cdiv (RtoC x) (RtoC y) = RtoC (x / y).
Proof. intros H. unfold Cdiv. rewrite <- RtoC_inv by exact H. rewrite <- RtoC_mult. reflexivity. Qed.
Lemma det_C : det3 (RtoC 4) (RtoC pp) (RtoC qq) (RtoC pp) (RtoC 4) (RtoC qq) (RtoC qq) (RtoC qq) (RtoC 4) = RtoC dd.
Proof. unfold det3, dd. generalize pp, qq. intros. apply C_eq; unfold Cminus, Cmult, Cplus, Copp, RtoC; cbn [fst snd]; ring. Qed.
Lemma det_P : det3 (RtoC pp) (RtoC 4) (RtoC qq) (RtoC 4) (RtoC pp) (RtoC qq) (RtoC qq) (RtoC qq) (RtoC 4) = RtoC (- dd).
Proof. unfold det3, dd. generalize pp, qq. intros. apply C_eq; unfold Cminus, Cmult, Cplus, Copp, RtoC; cbn [fst snd]; ring. Qed.
Lemma RC2 x y u v : Cminus (Cmult (RtoC x) (RtoC y)) (Cmult (RtoC u) (RtoC v)) = RtoC (x * y - u * v).
Proof. apply C_eq; unfold Cminus, Cmult, Cplus, Copp, RtoC; cbn [fst snd]; ring. Qed.

(** upper left 2 by 2 block *)
Definition has_block (M : cmat) (w x y u : C) : Prop := cent M 0 0 = w /\ cent M 0 1 = x /\ cent M 1 0 = y /\ cent M 1 1 = u.
Lemma inv_C : exists X, inv3 (gram (cconj_mat B) B [1; 1; 1; 1] 3) = Ok X /\ has_block X (RtoC alp) (RtoC bet) (RtoC bet) (RtoC alp).
Proof.
  assert (D := dd_pos). rewrite gram_C. unfold inv3. destruct (Cdec _ _) as [E|_].
  { rewrite det_C in E. injection E. lra. }
  eexists. split; [reflexivity|]. unfold has_block, cent. cbn [nth]. rewrite det_C, !RC2, !Cdiv_R by lra. unfold alp, bet.
  repeat split; f_equal; field; lra.
Qed.
Lemma inv_P : exists X, inv3 (gram B B [1; 1; 1; 1] 3) = Ok X /\ has_block X (RtoC bet) (RtoC alp) (RtoC alp) (RtoC bet).
Proof.
  assert (D := dd_pos). rewrite gram_P. unfold inv3. destruct (Cdec _ _) as [E|_].
  { rewrite det_P in E. injection E. lra. }
  eexists. split; [reflexivity|]. unfold has_block, cent. cbn [nth]. rewrite det_P, !RC2, !Cdiv_R by lra. unfold alp, bet.
  repeat split; f_equal; field; lra.
Qed.
Lemma gammas_val : exists gC gP, gammas L B 3 ex_W data xmod4 = Ok (Some (gC, gP)) /\
  let v := RtoC (nn * (fst z ^ 2 + snd z ^ 2)) in let f := Cmult (RtoC nn) (Cmult z z) in
  has_block gC (Cmult (RtoC alp) v) (Cmult (RtoC bet) v) (Cmult (RtoC bet) v) (Cmult (RtoC alp) v) /\
  has_block gP (Cmult (RtoC bet) f) (Cmult (RtoC alp) f) (Cmult (RtoC alp) f) (Cmult (RtoC bet) f).
Proof.
  destruct inv_C as (X & EX & HX). destruct inv_P as (Y & EY & HY). unfold gammas.
  change (all_finite ex_W) with (Some [1; 1; 1; 1]). cbn [hourL l_inv]. rewrite EX. cbn [bind]. rewrite EY. cbn [bind].
  change (length data) with 4%nat. destruct (Req_EM_T _ _) as [Z|_]; [exfalso; cbn in Z; lra|].
  assert (D1 : INR 4 - INR 3 = 1) by (cbn; ring). rewrite D1, res_C, res_P.
  do 2 eexists. split; [reflexivity|]. cbv zeta. unfold has_block in *. rewrite !cent_scaled.
  destruct HX as (-> & -> & -> & ->). destruct HY as (-> & -> & -> & ->).
  assert (E1 : fst (RtoC (nn * (fst z ^ 2 + snd z ^ 2))) / 1 = nn * (fst z ^ 2 + snd z ^ 2)) by (cbn [RtoC fst]; field). rewrite E1.
  assert (E2 : forall w, Cdiv w (RtoC 1) = w) by (intros w; field; intros Q; injection Q; lra). rewrite E2. repeat split.
Qed.
Lemma traces gC gP : let v := RtoC (nn * (fst z ^ 2 + snd z ^ 2)) in let f := Cmult (RtoC nn) (Cmult z z) in
  has_block gC (Cmult (RtoC alp) v) (Cmult (RtoC bet) v) (Cmult (RtoC bet) v) (Cmult (RtoC alp) v) ->
  has_block gP (Cmult (RtoC bet) f) (Cmult (RtoC alp) f) (Cmult (RtoC alp) f) (Cmult (RtoC bet) f) ->
  let G := block true (gC, gP) 1 0 in let H := block false (gC, gP) 1 0 in
  varXu G G + varYu H H = 4 * alp * nn * fst z ^ 2 /\ varXv H H + varYv G G = 4 * alp * nn * snd z ^ 2.
Proof.
  cbv zeta. intros (A1 & A2 & A3 & A4) (P1 & P2 & P3 & P4). unfold block. cbn [fst snd Nat.add]. rewrite A1, A2, A3, A4, P1, P2, P3, P4.
  generalize alp, bet, nn. intros x y n. destruct z as [z1 z2]. unfold varXu, varYu, varXv, varYv, re4, Cminus, Cplus, Copp, Cmult, RtoC. cbn [fst snd]. split; field.
Qed.
End Rows.
