(** Monte-Carlo intervals of a whole analysis with coloured noise. *)
From Coq Require Import Lia Lra Permutation.
From Coquelicot Require Import Coquelicot.
From Verif Require Import M_Base M_Lib M_Options M_Time M_Slvinit M_Select M_Ellipse M_Period M_Conf M_Solve M_Diag M_Recon
  S_Order S_Ellipse S_Dict S_Options S_Slv S_Fit S_Recon S_Model S_Conf S_Errors S_Period S_Noise S_Sampled
  L_Base L_SolveInv L_OptSolve L_Slv2 L_Select L_Conf2 L_Conf3 L_Conf4 L_Conf5 L_Conf6 L_Errors5 L_Errors6 L_Noise L_Noise2 L_Noise3 L_Sampled.
Open Scope R_scope.
Open Scope string_scope.

Lemma products_self w : products w w = squares w.
Proof. unfold products, squares. induction w as [|x w IH]; [reflexivity|]. cbn [combine map]. rewrite !rsum_cons, IH. cbn [fst snd]. ring. Qed.
Lemma squares_comb a b : forall w w', length w = length w' ->
  a ^ 2 * squares w + 2 * a * b * products w w' + b ^ 2 * squares w' = rsum (map (fun p => (a * fst p + b * snd p) ^ 2) (combine w w')).
Proof.
  unfold squares, products. induction w as [|x w IH]; intros [|y w'] H; try discriminate; [unfold rsum; cbn; ring|].
  cbn [combine map]. rewrite !rsum_cons. rewrite <- IH by (now injection H). cbn [fst snd]. ring.
Qed.
Lemma cov_semidefinite P w w' : 0 <= P -> length w = length w' -> 0 < squares w + squares w' ->
  semidefinite 2 [[P * (squares w / (squares w + squares w')); P * (products w w' / (squares w + squares w'))];
                  [P * (products w w' / (squares w + squares w')); P * (squares w' / (squares w + squares w'))]].
Proof.
  intros HP HL HS. split.
  - intros i j Hi Hj. destruct i as [|[|i]]; [| |lia]; destruct j as [|[|j]]; try lia; reflexivity.
  - intros x. cbn [nsum entry_of nth]. unfold entry_of. cbn [nth].
    assert (G := sumsq_nonneg (fun p => x 0%nat * fst p + x 1%nat * snd p) (combine w w')). cbv beta in G. rewrite <- (squares_comb (x 0%nat) (x 1%nat) w w' HL) in G.
    match goal with |- 0 <= ?e => replace e with (P / (squares w + squares w') * (x 0%nat ^ 2 * squares w + 2 * x 0%nat * x 1%nat * products w w' + x 1%nat ^ 2 * squares w')) by (field; lra) end.
    apply Rmult_le_pos; [|exact G]. apply Rmult_le_pos; [exact HP|]. apply Rlt_le, Rinv_0_lt_compat, HS.
Qed.
Lemma square2 (M : rmat) : square 2 M -> M = [[entry_of M 0 0; entry_of M 0 1]; [entry_of M 1 0; entry_of M 1 1]].
Proof.
  intros [H1 H2]. destruct M as [|a [|b [|]]]; try discriminate. inversion H2 as [|? ? A H3]; subst. inversion H3 as [|? ? B _]; subst.
  destruct a as [|a0 [|a1 [|]]]; try discriminate. destruct b as [|b0 [|b1 [|]]]; try discriminate. reflexivity.
Qed.

(** the covariance that the sampler gets for scalar data: noise level [P] shared out, plus [y] on the diagonal, or only the variances *)
Lemma repaired L P w w' r : svd_exact L 2 -> (forall x, 0 <= l_spacing L x) -> 0 <= P -> length w = length w' -> 0 < squares w + squares w' ->
  let a := P * (squares w / (squares w + squares w')) in let b := P * (products w w' / (squares w + squares w')) in let d := P * (squares w' / (squares w + squares w')) in
  nearestSPD L 2 [[a; b]; [b; d]] = Ok r ->
  (exists y, 0 <= y /\ fst (fst r) = [[a + y; b]; [b; d + y]]) \/ fst (fst r) = [[a; 0]; [0; d]].
Proof.
  intros SV SP HP HL HS. cbv zeta. intros H. destruct r as [[r gu] k]. cbn [fst].
  assert (SD := cov_semidefinite P w w' HP HL HS).
  destruct gu.
  - right. destruct (nearest_ok _ _ _ _ _ _ H) as [[K _]|(_ & _ & D)]; [discriminate|]. destruct D as [SQ D].
    rewrite (square2 _ SQ), !D by lia. reflexivity.
  - left. destruct (nearest_semidefinite _ _ _ _ _ SV SP SD H) as (y & Y & SQ & D). exists y. split; [exact Y|].
    rewrite (square2 _ SQ), !D by lia. unfold entry_of, delta. cbn [nth Nat.eqb]. repeat (f_equal; try lra).
Qed.

Lemma xr_share P a s : s <> 0 -> xdiv (xmul (Fin P) (Fin a)) (Fin s) = Fin (P * a / s).
Proof. intros H. cbn [xmul xdiv]. destruct (Req_EM_T s 0); [contradiction|reflexivity]. Qed.
Lemma share2 P a s q : 0 < q -> s <> 0 -> P * (a * q) / (s * q) = P * (a / s).
Proof. intros. field. lra. Qed.
Lemma coloured_sampled_scalar L t u lat opts sm c : analysis L t u None lat opts sm c -> lstsq_minimises L -> inv_exact L -> mvn_shape L -> svd_exact L 2 ->
  (forall x, 0 <= l_spacing L x) ->
  setting opts "method" (PStr "ols") -> setting opts "infer" PNone -> setting opts "conf_int" (PStr "MC") -> setting opts "white" (PBool false) ->
  (params c < length sm)%nat ->
  forall xs, normalize_time (l_parse L) (arr_data t) (o_epoch (c_opt c)) = Ok xs -> o_equi (c_opt c) = true -> increasing (valid_times xs) ->
  forall rs, residuals c sm rs ->
  exists series frqs levels,
    residual_series true (valid_times xs) (map fst sm) (map fst rs) (valid_times xs) series /\
    Permutation (map Some frqs) (map w_frq (rows c)) /\ noise_spectrum (valid_times xs) series frqs levels /\
    forall r i f, In r (rows c) -> w_lind r = Some i -> w_frq r = Some f ->
    forall wX wY q, best_unbiased c sm i true wX -> best_unbiased c sm i false wY -> noise_variance fst c sm q -> 0 < q ->
    let X := estimate fst wX sm in let Y := estimate fst wY sm in
    let x := squares wX / (squares wX + squares wY) in let y := squares wY / (squares wX + squares wY) in let z := products wX wY / (squares wX + squares wY) in
    w_A r = Some (Some (A_of X Y)) /\ w_g r = Some (g1_of X Y) /\
    exists P cov a b, noise_at (effective_length (valid_times xs)) levels f (Fin P) /\ 0 <= P /\
      ((exists e, 0 <= e /\ cov = [[P * x + e; P * z]; [P * z; P * y + e]]) \/ cov = [[P * x; 0]; [0; P * y]]) /\
      scalar_draws L X Y cov 200 (g1_of X Y) a b /\ w_A_ci r = Some (Some a) /\ w_g_ci r = Some (Some b).
Proof.
  intros AN LM IX MV SV SPC ME IN CI WH PN xs Hx He Hi rs RS.
  destruct (run_conf _ _ _ _ _ _ _ _ false AN LM IX ME IN CI PN) as (si & frq & p & Hs & PF & NB & H).
  assert (Hw : o_white (c_opt c) = false).
  { apply (set_white _ _ _ _ _ _ (an_keys _ _ _ _ _ _ _ _ AN) _ (an_solve _ _ _ _ _ _ _ _ AN) _ WH). exact falsy_false. }
  assert (N2 := params_2 _ _ PN).
  destruct (even_noise _ _ _ _ _ _ _ _ _ _ _ _ _ AN Hx He Hw Hi Hs N2 RS NB) as (U & lu & pu & q0 & -> & R1 & LU & SP & FU & _).
  exists U, frq, lu. split; [exact R1|]. split; [exact PF|]. split; [exact SP|].
  intros r i f Hr Hl Hf wX wY q BX BY NV Q.
  destruct (H r i Hr Hl) as (k & wX' & wY' & qu & qv & quv & gm & nc & w & g & th & Hk & BX' & BY' & NU & _ & _ & _ & _ & (V1 & V2 & _ & _) & (K1 & _) & Elin & W & D).
  rewrite (best_unique _ _ _ _ _ _ BX' BX), (best_unique _ _ _ _ _ _ BY' BY), (noise_unique _ _ _ _ _ NU NV) in *.
  clear BX' BY' NU wX' wY' qu H.
  rewrite (set_twodim _ _ _ _ _ _ (an_keys _ _ _ _ _ _ _ _ AN) _ (an_solve _ _ _ _ _ _ _ _ AN)) in D. cbn [is2d] in D.
  destruct D as (-> & D1 & D2 & D3 & D4). cbv zeta in *. unfold conf_one in W. cbv zeta in W.
  rewrite Elin, (set_twodim _ _ _ _ _ _ (an_keys _ _ _ _ _ _ _ _ AN) _ (an_solve _ _ _ _ _ _ _ _ AN)), V1, V2, K1 in W. cbn [is2d n_uu option_map fst] in W.
  rewrite (set_nrlzn _ _ _ _ _ _ (an_keys _ _ _ _ _ _ _ _ AN) _ (an_solve _ _ _ _ _ _ _ _ AN)) in W.
  apply mc1_draws in W; [|exact MV]. destruct W as (cov & C1 & C2). unfold cov1 in C1. destruct C1 as (A & rr & F1 & F2 & F3).
  rewrite Hf in Hk. assert (NA := level_nth _ _ _ _ _ _ FU Hk).
  destruct (even_length _ _ _ _ _ _ _ _ _ _ AN Hx He Hi Hs N2) as (_ & K & _). apply kept_len in K. rewrite map_length in K.
  assert (NT : (2 <= length (valid_times xs))%nat) by lia. assert (NS : (2 <= length U)%nat) by lia.
  assert (NN := noise_nonneg _ _ _ _ _ _ _ (effective_pos _ Hi NT) Hi NT NS SP NA).
  assert (Hj := row_lind _ _ _ Hr Hl). assert (SX := unbiased_squares _ _ _ _ _ Hj (proj1 BX)). assert (SY := unbiased_squares _ _ _ _ _ Hj (proj1 BY)).
  destruct NN as [(P & EP & P0)|EP]; rewrite EP in *.
  2: { exfalso. discriminate F1. }
  split; [exact D1|]. split; [exact D2|]. exists P, cov, (ci_maj w), (ci_g w). split; [exact NA|]. split; [exact P0|]. split; [|auto].
  assert (SS : squares wX + squares wY <> 0) by lra.
  assert (NZ : (squares wX + squares wY) * q <> 0) by (apply Rmult_integral_contrapositive; lra).
  unfold rescale in F1. cbn [xadd map] in F1. replace (squares wX * q + squares wY * q) with ((squares wX + squares wY) * q) in F1 by ring.
  rewrite !xr_share in F1 by exact NZ. rewrite !share2 in F1 by assumption. cbn in F1. apply Ok_inj in F1. subst A cov.
  assert (LW : length wX = length wY) by (rewrite (proj1 (proj1 BX)), (proj1 (proj1 BY)); reflexivity).
  apply (repaired L P wX wY rr SV SPC P0 LW ltac:(lra)). exact F2.
Qed.

(** ** both components *)
Lemma noise_value T l f x : noise_at T l f x -> (exists P, x = Fin P) \/ x = NaN.
Proof.
  intros [H1 H2].
  assert (D : (exists b, (b < 9)%nat /\ fst (nth b tidal_bands (0, 0)) <= f <= snd (nth b tidal_bands (0, 0))) \/
    forall b, (b < 9)%nat -> ~ (fst (nth b tidal_bands (0, 0)) <= f <= snd (nth b tidal_bands (0, 0)))).
  { generalize 9%nat. intros n. induction n as [|n IH]; [right; intros; lia|]. destruct IH as [(b & Hb & H)|IH]; [left; exists b; split; [lia|exact H]|].
    destruct (Rle_dec (fst (nth n tidal_bands (0, 0))) f), (Rle_dec f (snd (nth n tidal_bands (0, 0)))); [left; exists n; split; [lia|auto]| | |];
      right; intros b Hb K; (destruct (Nat.eq_dec b n) as [->|]; [tauto|apply (IH b); [lia|exact K]]). }
  destruct D as [(b & Hb & H)|H].
  - rewrite (H1 b Hb H). unfold power_of. destruct (nth b l None); eauto.
  - rewrite (H2 H). eauto.
Qed.
Lemma sign_abs q : q <> 0 -> q / Rabs q = sign q.
Proof.
  intros H. destruct (Rdichotomy q 0 H) as [K|K].
  - rewrite Rabs_left, sign_eq_m1 by lra. field. lra.
  - rewrite Rabs_right, sign_eq_1 by lra. field. lra.
Qed.
Lemma xlt_pos x : 0 < x -> xlt (Fin 0) (Fin x) = true.
Proof. intros H. unfold xlt, xge. destruct (Rle_dec x 0); [lra|reflexivity]. Qed.
Lemma xlt_zero x : x = 0 -> xlt (Fin 0) (Fin x) = false.
Proof. intros ->. unfold xlt, xge. destruct (Rle_dec 0 0); [reflexivity|lra]. Qed.
Lemma xabs_fin x : xabs (Fin x) = Fin (Rabs x). Proof. reflexivity. Qed.

Lemma coloured_sampled_vector L t u v lat opts sm c : analysis L t u (Some v) lat opts sm c -> lstsq_minimises L -> inv_exact L -> mvn_shape L ->
  setting opts "method" (PStr "ols") -> setting opts "infer" PNone -> setting opts "conf_int" (PStr "MC") -> setting opts "white" (PBool false) ->
  (params c < length sm)%nat ->
  forall xs, normalize_time (l_parse L) (arr_data t) (o_epoch (c_opt c)) = Ok xs -> o_equi (c_opt c) = true -> increasing (valid_times xs) ->
  forall rs, residuals c sm rs ->
  exists U V frqs lu lv luv,
    let times := valid_times xs in let T := effective_length times in
    residual_series true times (map fst sm) (map fst rs) times U /\ residual_series true times (map fst sm) (map snd rs) times V /\
    Permutation (map Some frqs) (map w_frq (rows c)) /\
    noise_spectrum times U frqs lu /\ noise_spectrum times V frqs lv /\ cross_noise_spectrum times U V frqs luv /\
    forall r i f, In r (rows c) -> w_lind r = Some i -> w_frq r = Some f ->
    forall wX wY qu qv quv, best_unbiased c sm i true wX -> best_unbiased c sm i false wY ->
    noise_variance fst c sm qu -> noise_variance snd c sm qv -> noise_covariance c sm quv -> 0 < qu -> 0 < qv ->
    let Xu := estimate fst wX sm in let Yu := estimate fst wY sm in let Xv := estimate snd wX sm in let Yv := estimate snd wY sm in
    let s := squares wX + squares wY in let xx := squares wX / s in let yy := squares wY / s in let xy := products wX wY / s in
    let s' := squares wX + 2 * Rabs (products wX wY) + squares wY in
    let xx' := squares wX / s' in let yy' := squares wY / s' in let xy' := products wX wY / s' in
    w_Lsmaj r = Some (Some (maj_of Xu Yu Xv Yv)) /\ w_Lsmin r = Some (Some (min_of Xu Yu Xv Yv)) /\
    w_theta r = Some (Some (theta_of Xu Yu Xv Yv)) /\ w_g r = Some (g_of Xu Yu Xv Yv) /\
    exists P Q S cov gave_up k a b d e, noise_at T lu f (Fin P) /\ 0 <= P /\ noise_at T lv f (Fin Q) /\ 0 <= Q /\ (quv <> 0 -> noise_at T luv f (Fin S)) /\
      let W := sign quv * S in
      nearestSPD L 4 [[P * xx; P * xy; W * xx'; W * xy']; [P * xy; P * yy; W * xy'; W * yy'];
                      [W * xx'; W * xy'; Q * xx; Q * xy]; [W * xy'; W * yy'; Q * xy; Q * yy]] = Ok (cov, gave_up, k) /\
      vector_draws L Xu Yu Xv Yv cov 200 (theta_of Xu Yu Xv Yv) (g_of Xu Yu Xv Yv) a b d e /\
      w_Lsmaj_ci r = Some (Some a) /\ w_Lsmin_ci r = Some (Some b) /\ w_theta_ci r = Some (Some d) /\ w_g_ci r = Some (Some e).
Proof.
  intros AN LM IX MV ME IN CI WH PN xs Hx He Hi rs RS.
  destruct (run_conf _ _ _ _ _ _ _ _ false AN LM IX ME IN CI PN) as (si & frq & p & Hs & PF & NB & H).
  assert (Hw : o_white (c_opt c) = false).
  { apply (set_white _ _ _ _ _ _ (an_keys _ _ _ _ _ _ _ _ AN) _ (an_solve _ _ _ _ _ _ _ _ AN) _ WH). exact falsy_false. }
  assert (N2 := params_2 _ _ PN).
  assert (TW := set_twodim _ _ _ _ _ _ (an_keys _ _ _ _ _ _ _ _ AN) _ (an_solve _ _ _ _ _ _ _ _ AN)). cbn [is2d] in TW.
  destruct (even_noise _ _ _ _ _ _ _ _ _ _ _ _ _ AN Hx He Hw Hi Hs N2 RS NB) as (U & lu & pu & q0 & -> & R1 & LU & SP & FU & HV).
  destruct (HV TW) as (V & lv & pv & puv & R2 & LV & SPv & -> & FV & luv & SPc & FC).
  exists U, V, frq, lu, lv, luv. cbv zeta. do 6 (split; [assumption|]).
  intros r i f Hr Hl Hf wX wY qu qv quv BX BY NU NV NC QU QV.
  destruct (H r i Hr Hl) as (k & wX' & wY' & qu' & qv' & quv' & gm & nc & w & g & th & Hk & BX' & BY' & NU' & NV' & NC' & _ & _ & (V1 & V2 & V3 & V4) & (K1 & K2 & K3 & K4 & K5 & K6) & Elin & W & D).
  rewrite (best_unique _ _ _ _ _ _ BX' BX), (best_unique _ _ _ _ _ _ BY' BY), (noise_unique _ _ _ _ _ NU' NU), (noise_unique _ _ _ _ _ NV' NV), (noise_cov_unique _ _ _ _ NC' NC) in *.
  clear BX' BY' NU' NV' NC' wX' wY' qu' qv' quv' H. rewrite TW in D.
  destruct D as (-> & -> & D1 & D2 & D3 & D4 & D5 & D6 & D7 & D8). cbv zeta in *. unfold conf_one in W. cbv zeta in W.
  rewrite Elin, TW, V1, V2, V3, V4, K1, K2, K3, K4, K5, K6 in W. cbn [n_uu n_vv n_uv option_map fst snd] in W.
  rewrite (set_nrlzn _ _ _ _ _ _ (an_keys _ _ _ _ _ _ _ _ AN) _ (an_solve _ _ _ _ _ _ _ _ AN)) in W.
  apply mc2_draws in W; [|exact MV]. destruct W as (cov & C1 & C2). unfold cov2 in C1. destruct C1 as (A & rr & F1 & F2 & F3).
  rewrite Hf in Hk. assert (NA := level_nth _ _ _ _ _ _ FU Hk). assert (NAv := level_nth _ _ _ _ _ _ FV Hk). assert (NAc := level_nth _ _ _ _ _ _ FC Hk).
  destruct (even_length _ _ _ _ _ _ _ _ _ _ AN Hx He Hi Hs N2) as (_ & K & _). apply kept_len in K. rewrite map_length in K.
  assert (NT : (2 <= length (valid_times xs))%nat) by lia. assert (NS : (2 <= length U)%nat) by lia. assert (NSv : (2 <= length V)%nat) by lia.
  assert (NN := noise_nonneg _ _ _ _ _ _ _ (effective_pos _ Hi NT) Hi NT NS SP NA).
  assert (NNv := noise_nonneg _ _ _ _ _ _ _ (effective_pos _ Hi NT) Hi NT NSv SPv NAv). assert (NNc := noise_value _ _ _ _ NAc).
  assert (Hj := row_lind _ _ _ Hr Hl). assert (SX := unbiased_squares _ _ _ _ _ Hj (proj1 BX)). assert (SY := unbiased_squares _ _ _ _ _ Hj (proj1 BY)).
  destruct NN as [(P & EP & P0)|EP]; rewrite EP in *.
  2: { exfalso. revert F1. destruct (xlt _ _); unfold need_finite; cbn; discriminate. }
  assert (SS : squares wX + squares wY <> 0) by lra.
  assert (NZ : (squares wX + squares wY) * qu <> 0) by (apply Rmult_integral_contrapositive; lra).
  assert (NZv : (squares wX + squares wY) * qv <> 0) by (apply Rmult_integral_contrapositive; lra).
  set (x := squares wX) in *. set (y := squares wY) in *. set (z := products wX wY) in *.
  set (Dc := [[Fin (x * quv); Fin (z * quv)]; [Fin (z * quv); Fin (y * quv)]]) in *.
  assert (Es : xsum (map xabs (List.concat Dc)) = Fin ((x + 2 * Rabs z + y) * Rabs quv)).
  { unfold Dc. cbn [List.concat app map]. rewrite !xabs_fin. unfold xsum. cbn. f_equal. rewrite !Rabs_mult. rewrite (Rabs_right x), (Rabs_right y) by lra. ring. }
  rewrite Es in F1. clear Es.
  assert (EC : exists S, (quv <> 0 -> nth_x puv k = Fin S) /\
    (if xlt (Fin 0) (Fin ((x + 2 * Rabs z + y) * Rabs quv)) then rescale (nth_x puv k) Dc (Fin ((x + 2 * Rabs z + y) * Rabs quv)) else map (map (fun _ => Fin 0)) Dc) =
    map (map Fin) [[sign quv * S * (x / (x + 2 * Rabs z + y)); sign quv * S * (z / (x + 2 * Rabs z + y))];
                   [sign quv * S * (z / (x + 2 * Rabs z + y)); sign quv * S * (y / (x + 2 * Rabs z + y))]]).
  { assert (Z := Rabs_pos z). destruct (Req_dec quv 0) as [E0|E0].
    - exists 0. split; [intros; contradiction|]. rewrite xlt_zero by (rewrite E0, Rabs_R0; ring).
      unfold Dc. cbn [map]. rewrite !Rmult_0_r, !Rmult_0_l. reflexivity.
    - assert (QP := Rabs_pos_lt _ E0).
      assert (SP' : 0 < (x + 2 * Rabs z + y) * Rabs quv) by (apply Rmult_lt_0_compat; lra).
      assert (F1' := F1). rewrite xlt_pos in F1' |- * by exact SP'.
      destruct NNc as [(S & ES)|ES]; rewrite ES in *.
      + exists S. split; [reflexivity|]. unfold rescale, Dc. cbn [map]. rewrite !xr_share by lra.
        assert (G : forall d, S * (d * quv) / ((x + 2 * Rabs z + y) * Rabs quv) = sign quv * S * (d / (x + 2 * Rabs z + y))).
        { intros d. rewrite <- (sign_abs quv E0). field. split; lra. }
        rewrite !G. reflexivity.
      + exfalso. revert F1'. unfold rescale, Dc. cbn [map xadd]. replace (x * qu + y * qu) with ((x + y) * qu) by ring. rewrite !xr_share by assumption.
        unfold need_finite. cbn. discriminate. }
  destruct EC as (S & ES & EC). rewrite EC in F1. clear EC Dc.
  destruct NNv as [(Q & EQ & Q0)|EQ]; rewrite EQ in *.
  2: { exfalso. revert F1. unfold rescale. cbn [map xadd]. replace (x * qu + y * qu) with ((x + y) * qu) by ring. rewrite !xr_share by assumption. unfold need_finite. cbn. discriminate. }
  unfold rescale in F1. cbn [xadd map] in F1. replace (x * qu + y * qu) with ((x + y) * qu) in F1 by ring. replace (x * qv + y * qv) with ((x + y) * qv) in F1 by ring.
  rewrite !xr_share in F1 by assumption. rewrite !share2 in F1 by assumption. unfold need_finite in F1. cbn in F1. apply Ok_inj in F1. subst A.
  do 4 (split; [assumption|]). destruct rr as [[cv gu] kk]. cbn [fst] in F3. subst cv.
  exists P, Q, S, cov, gu, kk, (ci_maj w), (ci_min w), (ci_theta w), (ci_g w).
  split; [exact NA|]. split; [exact P0|]. split; [exact NAv|]. split; [exact Q0|]. split; [intros N; rewrite <- (ES N); exact NAc|].
  split; [exact F2|]. auto.
Qed.
