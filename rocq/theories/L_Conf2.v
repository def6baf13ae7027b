(** Scalar and degenerate cases of the linearised intervals, half-widths, clustering, matrix repair. *)
From Coq Require Import Lia Lra Psatz.
From Coquelicot Require Import Coquelicot.
From Verif Require Import M_Base M_Lib M_Options M_Slvinit M_Select M_Ellipse M_Robust M_Period M_Conf S_Order S_Ellipse S_Conf
  L_Base L_Angle L_Ellipse L_Conf.
Open Scope R_scope.

Lemma x4_nan f1 f2 f3 f4 s : f1 = NaN \/ f2 = NaN \/ f3 = NaN \/ f4 = NaN -> x4 (f1, f2, f3, f4) s = NaN.
Proof.
  destruct s as [[[s1 s2] s3] s4].
  assert (A : forall x, xadd x NaN = NaN) by (intros []; reflexivity).
  assert (M : forall x, xmul x NaN = NaN) by (intros []; reflexivity).
  intros [-> | [-> | [-> | ->]]]; unfold x4, xsq; cbn [xmul]; cbn [xadd]; rewrite ?A; cbn [xadd]; rewrite ?A; reflexivity.
Qed.
Lemma xadd_nan_l x : xadd NaN x = NaN. Proof. reflexivity. Qed.
Lemma xadd_nan_r x : xadd x NaN = NaN. Proof. destruct x; reflexivity. Qed.
Lemma xdiv_00 : xdiv (Fin 0) (Fin 0) = NaN.
Proof. cbn. destruct (Req_EM_T 0 0); [|contradiction]. unfold sgn_inf. destruct (Rlt_dec 0 0); [lra|]. reflexivity. Qed.

Lemma linci_nan Xu Yu Xv Yv s1 s2 s3 s4 : circular Xu Yu Xv Yv ->
  ut_linci Xu Yu Xv Yv s1 s2 s3 s4 =
    if Req_EM_T Xv 0 then ((NaN, Fin 0), (NaN, Fin 0)) else ((NaN, NaN), (NaN, NaN)).
Proof.
  intros H.
  assert (D : Psq Xu Yu Xv Yv * Msq Xu Yu Xv Yv = 0).
  { assert (~ (Psq Xu Yu Xv Yv <> 0 /\ Msq Xu Yu Xv Yv <> 0)) by (rewrite <- not_circular; tauto).
    destruct (Req_EM_T (Psq Xu Yu Xv Yv) 0) as [->|]; [ring|]. destruct (Req_EM_T (Msq Xu Yu Xv Yv) 0) as [->|]; [ring|]. tauto. }
  unfold ut_linci. cbv zeta. rewrite den_g, den_th, D.
  assert (Z1 : xdiv (Fin ((Xu² - Yu² + Xv² - Yv²) * Yu - 2 * (Xu * Yu + Xv * Yv) * Xu)) (Fin 0) = NaN).
  { replace ((Xu² - Yu² + Xv² - Yv²) * Yu - 2 * (Xu * Yu + Xv * Yv) * Xu) with 0; [apply xdiv_00|].
    destruct H as [[-> ->]|[-> ->]]; unfold Rsqr; ring. }
  assert (Z2 : xdiv (Fin ((Xu² + Yu² - (Xv² + Yv²)) * Xv - 2 * (Xu * Xv + Yu * Yv) * Xu)) (Fin 0) = NaN).
  { replace ((Xu² + Yu² - (Xv² + Yv²)) * Xv - 2 * (Xu * Xv + Yu * Yv) * Xu) with 0; [apply xdiv_00|].
    destruct H as [[-> ->]|[-> ->]]; unfold Rsqr; ring. }
  rewrite Z1, Z2. rewrite !(x4_nan NaN) by tauto.
  assert (Q : (xdiv (Fin (Xu + Yv)) (Fin (/ 2 * sqrt ((Xu + Yv)² + (Xv - Yu)²))) = NaN) \/
              (xdiv (Fin (Xu - Yv)) (Fin (/ 2 * sqrt ((Xu - Yv)² + (Xv + Yu)²))) = NaN)).
  { destruct H as [[-> ->]|[-> ->]]; [right | left].
    - replace ((Xu - Xu)² + (Xv + - Xv)²) with 0 by (unfold Rsqr; ring). rewrite sqrt_0.
      replace (Xu - Xu) with 0 by ring. replace (/ 2 * 0) with 0 by ring. apply xdiv_00.
    - replace ((Xu + - Xu)² + (Xv - Xv)²) with 0 by (unfold Rsqr; ring). rewrite sqrt_0.
      replace (Xu + - Xu) with 0 by ring. replace (/ 2 * 0) with 0 by ring. apply xdiv_00. }
  set (ex := xdiv (Fin (Xu + Yv)) _) in *. set (fx := xdiv (Fin (Xu - Yv)) _) in *.
  assert (N1 : xq (xadd ex fx) = NaN) by (destruct Q as [-> | ->]; [reflexivity | rewrite xadd_nan_r; reflexivity]).
  assert (N2 : xq (xsub ex fx) = NaN)
    by (unfold xsub; destruct Q as [-> | ->]; [reflexivity | cbn [xneg]; rewrite xadd_nan_r; reflexivity]).
  rewrite N1, N2. rewrite !(x4_nan NaN) by tauto. destruct (Req_EM_T Xv 0); reflexivity.
Qed.

(** ** Scalar data *)

Lemma linci_scalar Xu Yu s1 s2 : Xu <> 0 \/ Yu <> 0 -> exists a1 a2 b1 b2,
  is_derive (fun x => A_of x Yu) Xu a1 /\ is_derive (fun y => A_of Xu y) Yu a2 /\
  turn_rate 360 (fun x => g1_of x Yu) Xu b1 /\ turn_rate 360 (fun y => g1_of Xu y) Yu b2 /\
  ut_linci Xu Yu 0 0 (Fin s1) (Fin s2) (Fin 0) (Fin 0) =
    ((Fin (sqrt (a1 ^ 2 * s1 ^ 2 + a2 ^ 2 * s2 ^ 2)), Fin 0), (Fin (sqrt (b1 ^ 2 * s1 ^ 2 + b2 ^ 2 * s2 ^ 2)), Fin 0)).
Proof.
  intros H. set (q := Xu * Xu + Yu * Yu).
  assert (Q : 0 < q) by (unfold q; assert (0 <= Xu * Xu) by nra; assert (0 <= Yu * Yu) by nra; destruct H; nra).
  assert (S := sqrt_lt_R0 _ Q). assert (P0 := PI_RGT_0).
  assert (EA : forall x y, A_of x y = sqrt (x * x + y * y)).
  { intros. unfold A_of, cs2cep1, e_maj, Cmod. cbn [fst snd]. f_equal. ring. }
  exists (Xu / sqrt q), (Yu / sqrt q), (180 / PI * (- Yu / q)), (180 / PI * (Xu / q)).
  assert (NG : forall (a b : R -> R) x a' b', is_derive a x a' -> is_derive b x b' -> a x = Xu -> b x = - Yu ->
    turn_rate 360 (fun y => pymod (- angle_deg (a y, b y)) 360) x (- (180 / PI) * ((Xu * b' - - Yu * a') / q))).
  { intros a b x a' b' Ha Hb E1 E2. destruct (turn_lift a b x a' b' Ha Hb) as (phi & D & Lc).
    - rewrite E1, E2. unfold q in Q. lra.
    - rewrite E1, E2 in D. replace (Xu * Xu + - Yu * - Yu) with q in D by (unfold q; ring).
      exists (fun y => - (180 / PI) * phi y). split.
      + assert (X : ex_derive phi x) by (eexists; eauto). auto_derive; [auto|].
        change (Derive (fun y => phi y) x) with (Derive phi x). rewrite (is_derive_unique _ _ _ D). ring.
      + revert Lc. apply filter_imp. intros y [k Hk]. apply same_angle_trans with (- angle_deg (a y, b y)); [apply pymod_same; lra|].
        unfold angle_deg. rewrite Hk. exists (- k)%Z. rewrite opp_IZR. field. lra. }
  assert (D0 : forall (c x : R), is_derive (fun _ : R => c) x 0) by (intros; auto_derive; auto).
  split; [|split; [|split; [|split]]].
  - eapply is_derive_ext; [intros t; symmetry; apply EA|]. auto_derive; [fold q; auto|]. fold q. field. lra.
  - eapply is_derive_ext; [intros t; symmetry; apply EA|]. auto_derive; [fold q; auto|]. fold q. field. lra.
  - assert (K := NG (fun x => x) (fun _ => - Yu) Xu 1 0).
    replace (180 / PI * (- Yu / q)) with (- (180 / PI) * ((Xu * 0 - - Yu * 1) / q)) by (field; lra).
    apply K; auto. auto_derive; auto.
  - assert (K := NG (fun _ => Xu) (fun x => - x) Yu 0 (-1)).
    replace (180 / PI * (Xu / q)) with (- (180 / PI) * ((Xu * -1 - - Yu * 0) / q)) by (field; lra).
    apply K; auto. auto_derive; [auto|ring].
  - unfold ut_linci. cbv zeta. destruct (Req_EM_T 0 0) as [_|]; [|contradiction].
    replace ((Xu + 0)² + (0 - Yu)²) with q by (unfold q, Rsqr; ring).
    replace ((Xu - 0)² + (0 + Yu)²) with q by (unfold q, Rsqr; ring).
    rewrite !(xdiv_fin _ (/ 2 * sqrt q)) by lra.
    assert (DG : (2 * (Xu * Yu + 0 * 0))² + (Xu² - Yu² + 0² - 0²)² = q * q) by (unfold q, Rsqr; ring).
    rewrite DG. assert (q * q <> 0) by nra. rewrite !(xdiv_fin _ (q * q)) by auto.
    unfold xq, xsub. cbn [xadd xneg xmul]. rewrite !x4_fin. unfold deg. cbn [xmul].
    rewrite propagated_scale by (apply Rlt_le, Rdiv_lt_0_compat; lra). unfold propagated.
    assert (F : forall a b c d : R, a = c -> b = d -> ((Fin (sqrt a), Fin 0), (Fin (sqrt b), Fin 0)) = ((Fin (sqrt c), Fin 0), (Fin (sqrt d), Fin 0)))
      by (intros; now subst).
    apply F.
    + replace (/ 4 * ((Xu + 0) / (/ 2 * sqrt q) + (Xu - 0) / (/ 2 * sqrt q))) with (Xu / sqrt q) by (field; lra).
      replace (/ 4 * ((Yu - 0) / (/ 2 * sqrt q) + (Yu + 0) / (/ 2 * sqrt q))) with (Yu / sqrt q) by (field; lra). ring.
    + replace ((Xu² - Yu² + 0² - 0²) * Yu - 2 * (Xu * Yu + 0 * 0) * Xu) with (- Yu * q) by (unfold q, Rsqr; ring).
      replace ((Xu² - Yu² + 0² - 0²) * Xu + 2 * (Xu * Yu + 0 * 0) * Yu) with (Xu * q) by (unfold q, Rsqr; ring).
      field. lra.
Qed.

(** ** Clustering *)
Lemma cluster_spec x xs ang : 0 < ang -> exists ys, cluster (x :: xs) ang = x :: ys /\
  Forall2 (fun a b => same_angle ang b a /\ x - ang / 2 <= b < x + ang / 2) xs ys.
Proof.
  intros H. unfold cluster. cbn [hd map].
  exists (map (fun a => pymod (a + (- x + ang / 2)) ang - (- x + ang / 2)) xs). split.
  - f_equal. rewrite pymod_small; lra.
  - induction xs as [|a xs IH]; constructor; auto. split.
    + destruct (pymod_same (a + (- x + ang / 2)) ang H) as [k Hk]. exists k. rewrite Hk. ring.
    + generalize (pymod_range (a + (- x + ang / 2)) ang H). lra.
Qed.

(** ** Repair of a covariance matrix *)
Lemma nth_map_seq {A} (f : nat -> A) n i d : (i < n)%nat -> nth i (map f (seq 0 n)) d = f i.
Proof.
  intros H. rewrite (nth_indep _ d (f 0%nat)) by (rewrite map_length, seq_length; auto).
  rewrite map_nth, seq_nth by auto. reflexivity.
Qed.
Lemma entry_mk n f i j : (i < n)%nat -> (j < n)%nat -> entry_of (mk_mat n f) i j = f i j.
Proof.
  intros Hi Hj. unfold entry_of, mk_mat.
  rewrite (nth_map_seq (fun i => map (fun j => f i j) (seq 0 n))) by auto. now rewrite nth_map_seq.
Qed.
Lemma square_mk n f : square n (mk_mat n f).
Proof.
  unfold square, mk_mat. rewrite map_length, seq_length. split; auto. apply Forall_map. apply Forall_forall.
  intros. now rewrite map_length, seq_length.
Qed.
Lemma rent_entry M i j : rent M i j = entry_of M i j. Proof. reflexivity. Qed.

(** what the loop keeps: the matrix is the starting one plus a multiple of the identity *)
Definition shifted (n : nat) (H M : rmat) (x : R) : Prop :=
  square n M /\ forall i j, (i < n)%nat -> (j < n)%nat -> entry_of M i j = entry_of H i j + if Nat.eqb i j then x else 0.

Lemma spd_loop_ok L n A H fuel : forall M k x r w k',
  spd_loop L n A fuel M k = Ok (r, w, k') -> (k <= 100)%nat -> shifted n H M x ->
  (w = false /\ (k <= k' <= 100)%nat /\ (0 < k')%nat /\ l_is_PD L r = true /\ exists y, shifted n H r y) \/
  (w = true /\ k' = 101%nat /\ diagonal_of n A r).
Proof.
  induction fuel as [|fuel IH]; intros M k x r w k' E Hk Hs; [discriminate|].
  cbn [spd_loop] in E. destruct (Nat.eqb k 0 || negb (l_is_PD L M)) eqn:Ec.
  - destruct (l_eigvals L M) as [ev|e]; [|discriminate]. cbn [bind] in E.
    destruct (Nat.ltb 100 (S k)) eqn:E1.
    + injection E as <- <- <-. apply Nat.ltb_lt in E1. right. split; auto. split; [lia|].
      unfold diag_mat. rewrite map_length, seq_length. split; [apply square_mk|].
      intros i j Hi Hj. rewrite entry_mk by auto. destruct (Nat.eqb i j) eqn:Ej; auto.
      now rewrite (nth_map_seq (fun i => rent A i i)).
    + apply Nat.ltb_ge in E1.
      apply (IH _ _ (x + l_spacing L (rmax (map Cmod ev) 0)) _ _ _) in E; [| lia |].
      * destruct E as [(-> & K1 & K2 & K3 & K4)|E]; [left | right; exact E]. repeat split; auto; lia.
      * destruct Hs as [_ Hs]. split; [apply square_mk|]. intros i j Hi Hj. unfold add_diag. rewrite entry_mk by auto.
        rewrite rent_entry, Hs by auto. destruct (Nat.eqb i j); ring.
  - injection E as <- <- <-. apply Bool.orb_false_iff in Ec. destruct Ec as [E0 E1]. apply Nat.eqb_neq in E0.
    apply Bool.negb_false_iff in E1. left. repeat split; auto; try lia. now exists x.
Qed.

(** failures come from the linear algebra only *)
Lemma spd_loop_err L n A fuel : forall M k e, spd_loop L n A fuel M k = Err e -> (k + fuel > 101)%nat -> (k <= 100)%nat ->
  exists X, l_eigvals L X = Err e.
Proof.
  induction fuel as [|fuel IH]; intros M k e E Hf Hk; [lia|].
  cbn [spd_loop] in E. destruct (Nat.eqb k 0 || negb (l_is_PD L M)) eqn:Ec; [|discriminate].
  destruct (l_eigvals L M) as [ev|e'] eqn:Ev; [|cbn in E; injection E as <-; eauto]. cbn [bind] in E.
  destruct (Nat.ltb 100 (S k)) eqn:E1; [discriminate|]. apply Nat.ltb_ge in E1. apply IH in E; auto; lia.
Qed.

Lemma shifted_symmetric n H M x : symmetric n H -> shifted n H M x -> symmetric n M.
Proof.
  intros S [_ E] i j Hi Hj. rewrite !E by auto. rewrite (S i j) by auto. rewrite (Nat.eqb_sym j i). reflexivity.
Qed.

Lemma nearest_ok L n A r w k : nearestSPD L n A = Ok (r, w, k) ->
  (w = false /\ (1 <= k <= 100)%nat /\ square n r /\ symmetric n r /\ l_is_PD L r = true) \/
  (w = true /\ k = 101%nat /\ diagonal_of n A r).
Proof.
  unfold nearestSPD. destruct (l_svd L (symm n A)) as [[[U sv] V]|e]; [|discriminate]. cbn [bind]. intros E.
  match type of E with spd_loop _ _ _ _ ?H _ = _ => set (Hm := H) in E end.
  assert (S0 : shifted n Hm Hm 0).
  { split; [apply square_mk|]. intros. destruct (Nat.eqb i j); ring. }
  assert (Sy : symmetric n Hm).
  { intros i j Hi Hj. unfold Hm, symm. rewrite !entry_mk by auto. lra. }
  destruct (spd_loop_ok L n A Hm 102 Hm 0 0 r w k E) as [(K1 & K2 & K3 & K4 & y & K5)|K]; auto; [lia|].
  left. split; auto. split; [lia|]. split; [apply K5|]. split; auto. eapply shifted_symmetric; eauto.
Qed.
Lemma nearest_err L n A e : nearestSPD L n A = Err e -> (exists X, l_svd L X = Err e) \/ (exists X, l_eigvals L X = Err e).
Proof.
  unfold nearestSPD. destruct (l_svd L (symm n A)) as [[[U sv] V]|e'] eqn:Es; cbn [bind]; intros E.
  - right. eapply spd_loop_err in E; eauto; lia.
  - injection E as <-. left. eauto.
Qed.
