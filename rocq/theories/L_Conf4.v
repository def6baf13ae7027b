(** Coloured noise, covariance columns, orientation of Monte-Carlo samples. *)
From Coq Require Import Lia Lra Psatz.
From Coquelicot Require Import Coquelicot.
From Verif Require Import M_Base M_Lib M_Options M_Time M_Slvinit M_Harmonics M_Select M_Ellipse M_Robust M_Period M_Conf M_Diag M_Solve
  S_Dict S_Options S_Order S_Ellipse S_Conf S_Robust
  L_Base L_Options L_SolveInv L_Select L_Angle L_Ellipse L_Core L_Robust L_Conf L_Conf2 L_Conf3.
Open Scope R_scope.
Open Scope string_scope.

(** ** Half-widths of the linearised method *)
Lemma sqrt_fin a : 0 <= a -> xsqrt (Fin a) = Fin (sqrt a).
Proof. intros H. cbn. destruct (Rlt_dec a 0); [lra|reflexivity]. Qed.

Lemma linear2_widths Xu Yu Xv Yv a b c d : ~ circular Xu Yu Xv Yv -> 0 <= a -> 0 <= b -> 0 <= c -> 0 <= d ->
  exists dmaj dmin dth dg,
    partials maj_of Xu Yu Xv Yv dmaj /\ partials min_of Xu Yu Xv Yv dmin /\
    turn_partials 180 theta_of Xu Yu Xv Yv dth /\ turn_partials 180 g_of Xu Yu Xv Yv dg /\
    let w := linear2 Xu Yu Xv Yv (Fin a) (Fin b) (Fin c) (Fin d) None in
    let s := fun p => Fin (196 / 100 * propagated p (sqrt a) (sqrt b) (sqrt c) (sqrt d)) in
    ci_maj w = s dmaj /\ ci_g w = s dg /\
    ci_min w = (if Req_EM_T Xv 0 then Fin 0 else s dmin) /\ ci_theta w = (if Req_EM_T Xv 0 then Fin 0 else s dth).
Proof.
  intros H Ha Hb Hc Hd. destruct (linci_general Xu Yu Xv Yv (sqrt a) (sqrt b) (sqrt c) (sqrt d) H)
    as (dmaj & dmin & dth & dg & P1 & P2 & P3 & P4 & E).
  exists dmaj, dmin, dth, dg. repeat (split; [assumption|]).
  cbv zeta. unfold linear2, csig. rewrite !sqrt_fin by assumption. unfold xcomplex.
  rewrite E. cbn [ci_maj ci_min ci_theta ci_g]. unfold z196. cbn [xmul].
  repeat split; destruct (Req_EM_T Xv 0); auto; f_equal; ring.
Qed.

Lemma linear1_widths X Y a b : X <> 0 \/ Y <> 0 -> 0 <= a -> 0 <= b -> exists a1 a2 b1 b2,
  is_derive (fun x => A_of x Y) X a1 /\ is_derive (fun y => A_of X y) Y a2 /\
  turn_rate 360 (fun x => g1_of x Y) X b1 /\ turn_rate 360 (fun y => g1_of X y) Y b2 /\
  ci_maj (linear1 X Y (Fin a) (Fin b) None) = Fin (196 / 100 * sqrt (a1 ^ 2 * a + a2 ^ 2 * b)) /\
  ci_g (linear1 X Y (Fin a) (Fin b) None) = Fin (196 / 100 * sqrt (b1 ^ 2 * a + b2 ^ 2 * b)).
Proof.
  intros H Ha Hb. destruct (linci_scalar X Y (sqrt a) (sqrt b) H) as (a1 & a2 & b1 & b2 & P1 & P2 & P3 & P4 & E).
  exists a1, a2, b1, b2. repeat (split; [assumption|]). unfold linear1. rewrite !sqrt_fin by assumption. rewrite E.
  cbn [ci_maj ci_g]. unfold z196. cbn [xmul]. rewrite !pow2_sqrt by assumption. auto.
Qed.

(** ** Coloured noise *)
Lemma coloured1 X Y a b P : a + b <> 0 ->
  linear1 X Y (Fin a) (Fin b) (Some (Fin P)) = linear1 X Y (Fin (P * a / (a + b))) (Fin (P * b / (a + b))) None.
Proof. intros H. unfold linear1. cbn [xadd xmul]. rewrite !xdiv_fin by exact H. reflexivity. Qed.
Lemma coloured2 Xu Yu Xv Yv a b c d P : c + d <> 0 ->
  linear2 Xu Yu Xv Yv a b (Fin c) (Fin d) (Some (Fin P)) =
  linear2 Xu Yu Xv Yv a b (Fin (P * c / (c + d))) (Fin (P * d / (c + d))) None.
Proof. intros H. unfold linear2. cbn [xadd xmul]. rewrite !xdiv_fin by exact H. reflexivity. Qed.

Lemma coloured_u_ignored L o gam pu pu' pv nc c Xu Yu Xv Yv g th : o_twodim o = true -> o_linci o = true ->
  conf_one L o gam (Some (pu, pv)) nc c Xu Yu Xv Yv g th = conf_one L o gam (Some (pu', pv)) nc c Xu Yu Xv Yv g th.
Proof. intros H1 H2. unfold conf_one. cbv zeta. rewrite H1, H2. reflexivity. Qed.

Lemma sqrt5 : sqrt 5 * sqrt 5 = 5. Proof. apply sqrt_sqrt. lra. Qed.
Lemma rect_maj Xu Xv c d : Xu² + Xv² = 5 -> Xv <> 0 -> 0 <= c -> 0 <= d ->
  ci_maj (linear2 Xu 0 Xv 0 (Fin 1) (Fin 1) (Fin c) (Fin d) None) = Fin (196 / 100 * sqrt ((Xu² + Xv² * c) / 5)).
Proof.
  intros E N Hc Hd. unfold linear2, csig. rewrite !sqrt_fin by (auto; lra). unfold xcomplex, ut_linci. cbv zeta.
  assert (S5 : 0 < sqrt 5) by (apply sqrt_lt_R0; lra).
  replace ((Xu + 0)² + (Xv - 0)²) with 5 by (rewrite <- E; unfold Rsqr; ring).
  replace ((Xu - 0)² + (Xv + 0)²) with 5 by (rewrite <- E; unfold Rsqr; ring).
  rewrite !(xdiv_fin _ (/ 2 * sqrt 5)) by lra.
  destruct (Req_EM_T Xv 0); [contradiction|].
  assert (D : (2 * (Xu * Xv + 0 * 0))² + (Xu² + 0² - (Xv² + 0²))² = 25).
  { replace 25 with ((Xu² + Xv²) * (Xu² + Xv²)) by (rewrite E; ring). unfold Rsqr. ring. }
  rewrite D. rewrite !(xdiv_fin _ 25) by lra.
  unfold xq, xsub. cbn [xadd xneg xmul]. rewrite !x4_fin. unfold xcomplex, z196, deg. cbn [ci_maj xmul fst snd].
  f_equal. f_equal. unfold propagated. f_equal. rewrite !pow2_sqrt by (auto; lra).
  replace (/ 4 * ((Xu + 0) / (/ 2 * sqrt 5) + (Xu - 0) / (/ 2 * sqrt 5))) with (Xu / sqrt 5) by (field; lra).
  replace (/ 4 * ((0 - Xv) / (/ 2 * sqrt 5) + (0 + Xv) / (/ 2 * sqrt 5))) with 0 by (field; lra).
  replace (/ 4 * ((0 + Xv) / (/ 2 * sqrt 5) + - ((0 - Xv) / (/ 2 * sqrt 5)))) with (Xv / sqrt 5) by (field; lra).
  replace (/ 4 * ((Xu + 0) / (/ 2 * sqrt 5) + - ((Xu - 0) / (/ 2 * sqrt 5)))) with 0 by (field; lra).
  unfold Rsqr. assert (Q : forall x, (x / sqrt 5) ^ 2 = x * x / 5).
  { intros x. replace (x * x / 5) with (x * x / (sqrt 5 * sqrt 5)) by (rewrite sqrt5; auto). field. lra. }
  rewrite !Q. field.
Qed.

Lemma swap_coloured : exists Xu Yu Xv Yv P,
  maj_of Xu Yu Xv Yv = maj_of Xv Yv Xu Yu /\
  ci_maj (linear2 Xu Yu Xv Yv (Fin 1) (Fin 1) (Fin 1) (Fin 1) (Some (Fin P))) <>
  ci_maj (linear2 Xv Yv Xu Yu (Fin 1) (Fin 1) (Fin 1) (Fin 1) (Some (Fin P))).
Proof.
  exists 2, 0, 1, 0, 8. split.
  - unfold maj_of, cs2cep2, e_maj, Cmod. cbn [fst snd]. f_equal; f_equal; field.
  - rewrite !coloured2 by lra. rewrite !rect_maj by (unfold Rsqr; lra). unfold Rsqr. intros E. injection E as E.
    apply Rmult_eq_reg_l in E; [|lra]. apply sqrt_inj in E; lra.
Qed.

(** ** A zero v cosine coefficient *)
Lemma zero_Xv Xu Yu Yv a b c d P : ci_min (linear2 Xu Yu 0 Yv a b c d P) = Fin 0 /\ ci_theta (linear2 Xu Yu 0 Yv a b c d P) = Fin 0.
Proof.
  unfold linear2, csig, xcomplex, ut_linci. cbv zeta. destruct (Req_EM_T 0 0); [|contradiction].
  destruct P; cbn [ci_min ci_theta]; unfold z196; cbn [xmul]; split; f_equal; ring.
Qed.
Lemma zero_Xv_wrong : exists Xu Yu Yv d, ~ circular Xu Yu 0 Yv /\ partials min_of Xu Yu 0 Yv d /\
  propagated d 1 1 1 1 <> 0 /\ ci_min (linear2 Xu Yu 0 Yv (Fin 1) (Fin 1) (Fin 1) (Fin 1) None) = Fin 0.
Proof.
  assert (N : ~ circular 2 0 0 1) by (unfold circular; intros [[? ?]|[? ?]]; lra).
  exists 2, 0, 1. apply not_circular in N as K. destruct K as [NP NM].
  destruct (axes_partials 2 0 0 1 NP NM) as [_ A]. cbv zeta in A.
  eexists. split; [exact N|]. split; [exact A|]. split; [|apply zero_Xv].
  assert (Rp : Rp_ 2 0 0 1 = 3 / 2).
  { unfold Rp_, Psq. replace ((2 + 1)² + (0 - 0)²) with (3²) by (unfold Rsqr; ring). rewrite sqrt_Rsqr; lra. }
  assert (Rm : Rm_ 2 0 0 1 = 1 / 2).
  { unfold Rm_, Msq. replace ((2 - 1)² + (0 + 0)²) with (1²) by (unfold Rsqr; ring). rewrite sqrt_Rsqr; lra. }
  rewrite Rp, Rm. unfold propagated. apply Rgt_not_eq, sqrt_lt_R0. field_simplify. lra.
Qed.

(** ** Covariance columns *)
Lemma nth_cslice m i n k : (k < n)%nat -> (i + n <= length m)%nat -> nth k (cslice m i n) (RtoC 0) = nth (i + k) m (RtoC 0).
Proof.
  intros Hk Hl. unfold cslice. revert m Hl. induction i as [|i IH]; intros m Hl; cbn [skipn plus].
  - clear Hl. revert m k Hk. induction n as [|n IHn]; intros m k Hk; [lia|]. destruct m as [|x m]; cbn.
    + destruct k; reflexivity.
    + destruct k; auto. apply IHn. lia.
  - destruct m as [|x m]; cbn [length] in *; [lia|]. cbn [nth]. apply IH. lia.
Qed.
Lemma columns_of m nNR nR c : (2 * (nNR + nR) <= length m)%nat -> (c < nNR + nR)%nat ->
  nth c (ap_of m nNR nR) (RtoC 0) = nth (pos_column nNR nR c) m (RtoC 0) /\
  nth c (am_of m nNR nR) (RtoC 0) = nth (neg_column nNR nR c) m (RtoC 0).
Proof.
  intros Hl Hc. unfold ap_of, am_of, pos_column, neg_column.
  assert (L1 : forall i, (i + nNR <= length m)%nat -> length (cslice m i nNR) = nNR).
  { intros i Hi. unfold cslice. rewrite firstn_length, skipn_length. lia. }
  destruct (Nat.ltb c nNR) eqn:E; [apply Nat.ltb_lt in E | apply Nat.ltb_ge in E].
  - rewrite !app_nth1 by (rewrite L1; lia). rewrite !nth_cslice by lia. split; f_equal; lia.
  - rewrite !app_nth2 by (rewrite L1; lia). rewrite !L1 by lia. rewrite !nth_cslice by lia. split; f_equal; lia.
Qed.

Lemma own_columns L o g h p nNR c Xu Yu Xv Yv gg th : (c < nNR)%nat -> own_columns_agree nNR 0 c g h ->
  conf_one L o (Some g) p nNR c Xu Yu Xv Yv gg th = conf_one L o (Some h) p nNR c Xu Yu Xv Yv gg th.
Proof.
  intros Hc A. unfold own_columns_agree, pos_column, neg_column in A.
  assert (Nat.ltb c nNR = true) as E by (apply Nat.ltb_lt; auto). rewrite E in A.
  assert (B : forall add, block add g nNR c = block add h nNR c).
  { intros add. unfold block. change cent with centry_of. rewrite (Nat.add_comm c nNR).
    destruct (A c c) as [-> ->]; auto. destruct (A c (nNR + c)%nat) as [-> ->]; auto.
    destruct (A (nNR + c)%nat c) as [-> ->]; auto. destruct (A (nNR + c)%nat (nNR + c)%nat) as [-> ->]; auto. }
  unfold conf_one. cbv zeta. rewrite !B. reflexivity.
Qed.

(** a matrix with a single non-zero entry x at (k,k) *)
Definition spike (n k : nat) (x : C) : cmat :=
  map (fun i => map (fun j => if (Nat.eqb i k && Nat.eqb j k)%bool then x else RtoC 0) (seq 0 n)) (seq 0 n).
Lemma spike_cent n k x i j : (i < n)%nat -> (j < n)%nat ->
  cent (spike n k x) i j = if (Nat.eqb i k && Nat.eqb j k)%bool then x else RtoC 0.
Proof.
  intros Hi Hj. unfold cent, spike. rewrite (nth_map_seq (fun i => map (fun j => if (Nat.eqb i k && Nat.eqb j k)%bool then x else RtoC 0) (seq 0 n))) by auto.
  now rewrite nth_map_seq.
Qed.

Definition lin_opt : optr :=
  {| o_twodim := false; o_equi := true; o_conf_int := true; o_cnstit := PNone; o_notrend := false;
     o_nodsatlint := false; o_nodsatnone := false; o_gwchlint := false; o_gwchnone := false; o_infer := None; o_rmin := 1;
     o_linci := true; o_white := true; o_nrlzn := 200; o_nodiagn := false; o_ordercnstit := PNone;
     o_method := PStr "ols"; o_robust_kw := PNone; o_epoch := PNone |}.

Lemma width_at_1_0 a b : 0 <= a -> 0 <= b -> ci_maj (linear1 1 0 (Fin a) (Fin b) None) = Fin (196 / 100 * sqrt a).
Proof.
  intros Ha Hb. unfold linear1. rewrite !sqrt_fin by assumption. unfold ut_linci. cbv zeta. destruct (Req_EM_T 0 0); [|contradiction].
  replace ((1 + 0)² + (0 - 0)²) with (1²) by (unfold Rsqr; ring). replace ((1 - 0)² + (0 + 0)²) with (1²) by (unfold Rsqr; ring).
  rewrite sqrt_Rsqr by lra. rewrite !(xdiv_fin _ (/ 2 * 1)) by lra. unfold xq, xsub. cbn [xadd xneg xmul].
  rewrite x4_fin. cbn [ci_maj]. unfold z196. cbn [xmul]. f_equal. f_equal. unfold propagated. f_equal.
  rewrite !pow2_sqrt by assumption. field.
Qed.

Lemma foreign_columns L nNR nR c : (1 <= nNR)%nat -> (1 <= nR)%nat -> (c < nNR + nR)%nat -> exists g h o Xu Yu w1 w2,
  own_columns_agree nNR nR c g h /\
  conf_one L o (Some g) None (nNR + nR) c Xu Yu 0 0 0 0 = Ok w1 /\
  conf_one L o (Some h) None (nNR + nR) c Xu Yu 0 0 0 0 = Ok w2 /\ ci_maj w1 <> ci_maj w2.
Proof.
  intros H1 H2 Hc. set (n := (2 * (nNR + nR))%nat).
  set (k := if Nat.ltb c nNR then (c + (nNR + nR))%nat else c).
  exists (spike n k (RtoC 0), spike n k (RtoC 0)), (spike n k (RtoC 2), spike n k (RtoC 0)), lin_opt, 1, 0.
  eexists. eexists. split; [|split; [reflexivity|split; [reflexivity|]]].
  - assert (Hp : (pos_column nNR nR c < n)%nat /\ (neg_column nNR nR c < n)%nat /\ pos_column nNR nR c <> k /\ neg_column nNR nR c <> k).
    { unfold pos_column, neg_column, k, n. destruct (Nat.ltb c nNR) eqn:E; [apply Nat.ltb_lt in E | apply Nat.ltb_ge in E]; lia. }
    destruct Hp as (Q1 & Q2 & Q3 & Q4). apply Nat.eqb_neq in Q3, Q4.
    intros i j Hi Hj. split; auto. cbn [fst snd]. change centry_of with cent.
    rewrite !spike_cent by (destruct Hi as [-> | ->], Hj as [-> | ->]; auto).
    assert (E : Nat.eqb i k = false) by (destruct Hi as [-> | ->]; auto). now rewrite E.
  - assert (B0 : forall add, block add (spike n k (RtoC 0), spike n k (RtoC 0)) (nNR + nR) c = (RtoC 0, RtoC 0, RtoC 0, RtoC 0)).
    { intros add. unfold block. cbn [fst snd]. rewrite !spike_cent by (unfold n; lia).
      repeat match goal with |- context [if (?a && ?b)%bool then RtoC 0 else RtoC 0] => replace (if (a && b)%bool then RtoC 0 else RtoC 0) with (RtoC 0) by (destruct (a && b)%bool; auto) end.
      destruct add; repeat (apply injective_projections; cbn [fst snd]); cbn; try reflexivity; ring. }
    assert (S : exists x y : R, (x = 2 /\ y = 0 \/ x = 0 /\ y = 2) /\ forall add,
              block add (spike n k (RtoC 2), spike n k (RtoC 0)) (nNR + nR) c = (RtoC x, RtoC 0, RtoC 0, RtoC y)).
    { unfold block. cbn [fst snd]. unfold k. destruct (Nat.ltb c nNR) eqn:E; [apply Nat.ltb_lt in E | apply Nat.ltb_ge in E].
      - exists 0, 2. split; [tauto|]. intros add. rewrite !spike_cent by (unfold n; lia). rewrite Nat.eqb_refl.
        assert (Q : Nat.eqb c (c + (nNR + nR)) = false) by (apply Nat.eqb_neq; lia). rewrite Q. cbn [andb].
        destruct add; repeat (apply injective_projections; cbn [fst snd]); cbn; try reflexivity; ring.
      - exists 2, 0. split; [tauto|]. intros add. rewrite !spike_cent by (unfold n; lia). rewrite Nat.eqb_refl.
        assert (Q : Nat.eqb (c + (nNR + nR)) c = false) by (apply Nat.eqb_neq; lia). rewrite Q. cbn [andb].
        destruct add; repeat (apply injective_projections; cbn [fst snd]); cbn; try reflexivity; ring. }
    destruct S as (x & y & Hxy & S). rewrite !B0, !S. unfold n_uu. cbn [option_map].
    assert (V0 : varXu (RtoC 0, RtoC 0, RtoC 0, RtoC 0) (RtoC 0, RtoC 0, RtoC 0, RtoC 0) = 0) by (unfold varXu, re4; cbn; field).
    assert (V1 : varYu (RtoC 0, RtoC 0, RtoC 0, RtoC 0) (RtoC 0, RtoC 0, RtoC 0, RtoC 0) = 0) by (unfold varYu, re4; cbn; field).
    assert (V2 : varXu (RtoC x, RtoC 0, RtoC 0, RtoC y) (RtoC x, RtoC 0, RtoC 0, RtoC y) = 1) by (unfold varXu, re4; cbn; lra).
    assert (V3 : varYu (RtoC x, RtoC 0, RtoC 0, RtoC y) (RtoC x, RtoC 0, RtoC 0, RtoC y) = 1) by (unfold varYu, re4; cbn; lra).
    cbn [lin_opt o_twodim]. rewrite V0, V1, V2, V3. rewrite !width_at_1_0 by lra. rewrite sqrt_0, sqrt_1. intros E. injection E as E. lra.
Qed.
