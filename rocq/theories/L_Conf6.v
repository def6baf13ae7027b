(** The polar factor of a semi-definite matrix is the matrix itself. *)
From Coq Require Import Lia Lra Psatz.
From Coquelicot Require Import Coquelicot.
From Verif Require Import M_Base M_Lib M_Options M_Slvinit M_Select M_Ellipse M_Robust M_Period M_Conf S_Order S_Ellipse S_Conf
  L_Base L_Conf L_Conf2 L_Conf4.
Open Scope R_scope.

Lemma nsum_ext n f g : (forall i, (i < n)%nat -> f i = g i) -> nsum n f = nsum n g.
Proof. induction n as [|n IH]; intros H; cbn; [auto|]. rewrite IH, H; auto. Qed.
Lemma nsum_plus n f g : nsum n (fun i => f i + g i) = nsum n f + nsum n g.
Proof. induction n as [|n IH]; cbn; [ring|]. rewrite IH. ring. Qed.
Lemma nsum_scal n c f : nsum n (fun i => c * f i) = c * nsum n f.
Proof. induction n as [|n IH]; cbn; [ring|]. rewrite IH. ring. Qed.
Lemma nsum_scal_r n c f : nsum n (fun i => f i * c) = nsum n f * c.
Proof. induction n as [|n IH]; cbn; [ring|]. rewrite IH. ring. Qed.
Lemma nsum_zero n : nsum n (fun _ => 0) = 0.
Proof. induction n as [|n IH]; cbn; [ring|]. rewrite IH. ring. Qed.
Lemma nsum_swap n m (f : nat -> nat -> R) : nsum n (fun i => nsum m (fun j => f i j)) = nsum m (fun j => nsum n (fun i => f i j)).
Proof. induction n as [|n IH]; cbn; [now rewrite nsum_zero|]. rewrite IH, <- nsum_plus. reflexivity. Qed.
Lemma nsum_delta n (f : nat -> R) k : (k < n)%nat -> nsum n (fun l => f l * delta l k) = f k.
Proof.
  induction n as [|n IH]; intros H; [lia|]. cbn. destruct (Nat.eq_dec k n) as [->|N].
  - unfold delta at 2. rewrite Nat.eqb_refl. rewrite (nsum_ext n _ (fun _ => 0)).
    + rewrite nsum_zero. ring.
    + intros i Hi. unfold delta. assert (E : Nat.eqb i n = false) by (apply Nat.eqb_neq; lia). rewrite E. ring.
  - rewrite IH by lia. unfold delta. assert (E : Nat.eqb n k = false) by (apply Nat.eqb_neq; lia). rewrite E. ring.
Qed.
Lemma nsum_sq0 n (f : nat -> R) : nsum n (fun i => f i * f i) <= 0 -> forall i, (i < n)%nat -> f i = 0.
Proof.
  assert (P : forall n, 0 <= nsum n (fun i => f i * f i)).
  { induction n0; cbn; [lra|]. assert (0 <= f n0 * f n0) by nra. lra. }
  induction n as [|n IH]; intros H i Hi; [lia|]. cbn in H. assert (0 <= f n * f n) by nra. specialize (P n).
  destruct (Nat.eq_dec i n) as [->|N]; [nra|]. apply IH; [lra|lia].
Qed.
Lemma rsum_nsum n (f : nat -> R) : rsum (map f (seq 0 n)) = nsum n f.
Proof.
  assert (A : forall l x, rsum (l ++ [x]) = rsum l + x).
  { unfold rsum. induction l as [|y l IH]; intros x; cbn; [ring|]. rewrite IH. ring. }
  induction n as [|n IH]; [reflexivity|]. rewrite seq_S, map_app. cbn [map plus]. rewrite A, IH. reflexivity.
Qed.

Section Polar.
Variables (n : nat) (B U : rmat) (s : list R) (V : rmat).
Hypothesis D : decomposes n B U s V.
Hypothesis Spos : forall k, 0 <= nth k s 0.
Hypothesis PSD : semidefinite n B.
Notation b := (entry_of B).
Notation u := (entry_of U).
Notation v := (entry_of V).
Notation sv := (fun k => nth k s 0).

Lemma image_v i k : (i < n)%nat -> (k < n)%nat -> nsum n (fun j => b i j * v k j) = u i k * sv k.
Proof.
  intros Hi Hk. destruct D as (D1 & D2 & D3).
  rewrite (nsum_ext n _ (fun j => nsum n (fun l => (u i l * sv l) * (v l j * v k j)))).
  - rewrite nsum_swap. rewrite (nsum_ext n _ (fun l => (u i l * sv l) * delta l k)).
    + apply (nsum_delta n (fun l => u i l * sv l) k Hk).
    + intros l Hl. rewrite nsum_scal, D3 by auto. reflexivity.
  - intros j Hj. rewrite D1 by auto. rewrite <- nsum_scal_r. apply nsum_ext. intros. ring.
Qed.
Lemma image_u j k : (j < n)%nat -> (k < n)%nat -> nsum n (fun i => b i j * u i k) = v k j * sv k.
Proof.
  intros Hi Hk. destruct D as (D1 & D2 & D3).
  rewrite (nsum_ext n _ (fun i => nsum n (fun l => (v l j * sv l) * (u i l * u i k)))).
  - rewrite nsum_swap. rewrite (nsum_ext n _ (fun l => (v l j * sv l) * delta l k)).
    + apply (nsum_delta n (fun l => v l j * sv l) k Hk).
    + intros l Hl. rewrite nsum_scal, D2 by auto. reflexivity.
  - intros i Hj. rewrite D1 by auto. rewrite <- nsum_scal_r. apply nsum_ext. intros. ring.
Qed.

Lemma same_factor i k : (i < n)%nat -> (k < n)%nat -> u i k * sv k = v k i * sv k.
Proof.
  intros Hi Hk. destruct PSD as [Sy Po].
  set (w := fun i => u i k * sv k - v k i * sv k).
  assert (W : forall j, (j < n)%nat -> nsum n (fun i => b j i * w i) = - sv k * w j).
  { intros j Hj. unfold w.
    rewrite (nsum_ext n _ (fun i => (b i j * u i k) * sv k + - ((b j i * v k i) * sv k))).
    - rewrite nsum_plus, nsum_scal_r, image_u by auto.
      rewrite (nsum_ext n (fun i => - (b j i * v k i * sv k)) (fun i => (- sv k) * (b j i * v k i))) by (intros; ring).
      rewrite nsum_scal, image_v by auto. ring.
    - intros l Hl. rewrite (Sy j l) by auto. ring. }
  assert (Q := Po w).
  rewrite (nsum_ext n _ (fun i => (- sv k) * (w i * w i))) in Q.
  - rewrite nsum_scal in Q. destruct (Req_dec (sv k) 0) as [E|E].
    + rewrite E. ring.
    + assert (0 < sv k) by (generalize (Spos k); lra).
      assert (Z : w i = 0); [|unfold w in Z; lra]. apply (nsum_sq0 n w); auto. nra.
  - intros l Hl. rewrite (nsum_ext n _ (fun j => w l * (b l j * w j))) by (intros; ring). rewrite nsum_scal, W by auto. ring.
Qed.

Lemma polar_self i j : (i < n)%nat -> (j < n)%nat -> entry_of (polar n s V) i j = b i j.
Proof.
  intros Hi Hj. unfold polar. rewrite entry_mk by auto. rewrite rsum_nsum. destruct D as (D1 & _).
  rewrite D1 by auto. apply nsum_ext. intros k Hk. change rent with entry_of.
  generalize (same_factor i k Hi Hk). intros E. cbv beta in E. rewrite E. change (rent V k j) with (entry_of V k j). ring.
Qed.
End Polar.

(** the number added to the diagonal grows *)
Lemma spd_loop_grows L n A H fuel : (forall x, 0 <= l_spacing L x) -> forall M k x r k',
  spd_loop L n A fuel M k = Ok (r, false, k') -> shifted n H M x -> exists y, x <= y /\ shifted n H r y.
Proof.
  intros Sp. induction fuel as [|fuel IH]; intros M k x r k' E Hs; [discriminate|].
  cbn [spd_loop] in E. destruct (Nat.eqb k 0 || negb (l_is_PD L M)) eqn:Ec.
  - destruct (l_eigvals L M) as [ev|e]; [|discriminate]. cbn [bind] in E.
    destruct (Nat.ltb 100 (S k)); [discriminate|].
    apply (IH _ _ (x + l_spacing L (rmax (map Cmod ev) 0)) _ _) in E.
    + destruct E as (y & Hy & Hs'). exists y. split; auto. generalize (Sp (rmax (map Cmod ev) 0)). lra.
    + destruct Hs as [_ Hs]. split; [apply square_mk|]. intros i j Hi Hj. unfold add_diag. rewrite entry_mk by auto.
      change rent with entry_of; rewrite Hs by auto. destruct (Nat.eqb i j); ring.
  - injection E as <- _. exists x. split; auto. lra.
Qed.

Lemma nearest_semidefinite L n A r k : svd_exact L n -> (forall x, 0 <= l_spacing L x) -> semidefinite n A ->
  nearestSPD L n A = Ok (r, false, k) ->
  exists y, 0 <= y /\ square n r /\ forall i j, (i < n)%nat -> (j < n)%nat -> entry_of r i j = entry_of A i j + y * delta i j.
Proof.
  intros Sv Sp PA. unfold nearestSPD. destruct (l_svd L (symm n A)) as [[[U sv] V]|e] eqn:Es; [|discriminate]. cbn [bind]. intros E.
  match type of E with spd_loop _ _ _ _ ?H _ = _ => set (Hm := H) in E end.
  assert (S0 : shifted n Hm Hm 0) by (split; [apply square_mk|]; intros; destruct (Nat.eqb i j); ring).
  destruct (spd_loop_grows L n A Hm 102 Sp _ _ _ _ _ E S0) as (y & Hy & Hsq & Hr).
  assert (EB : forall i j, (i < n)%nat -> (j < n)%nat -> entry_of (symm n A) i j = entry_of A i j).
  { intros i j Hi Hj. unfold symm. rewrite entry_mk by auto. change rent with entry_of. destruct PA as [Sy _]. rewrite (Sy j i) by auto. lra. }
  assert (PB : semidefinite n (symm n A)).
  { destruct PA as [Sy Po]. split.
    - intros i j Hi Hj. rewrite !EB by auto. auto.
    - intros x. specialize (Po x). erewrite nsum_ext; [exact Po|]. intros i Hi. apply nsum_ext. intros j Hj. now rewrite EB. }
  destruct (Sv _ _ _ _ (square_mk _ _) Es) as [Dc Ps].
  exists y. split; [lra|]. split; auto. intros i j Hi Hj. rewrite Hr by auto.
  assert (HA : entry_of Hm i j = entry_of A i j).
  { unfold Hm. unfold symm at 1. rewrite entry_mk by auto. change rent with entry_of. rewrite !entry_mk by auto. change rent with entry_of.
    rewrite !(polar_self n _ _ _ _ Dc Ps PB) by auto. rewrite !EB by auto. destruct PA as [Sy _]. rewrite (Sy j i) by auto. lra. }
  rewrite HA. unfold delta. destruct (Nat.eqb i j); ring.
Qed.

(** ** Intervals of inferred constituents, scalar data *)

Lemma linci_scale X Y s k : X <> 0 \/ Y <> 0 -> 0 <= k ->
  exists a b, ut_linci X Y 0 0 (Fin s) (Fin s) (Fin 0) (Fin 0) = ((Fin a, Fin 0), (Fin b, Fin 0)) /\
              ut_linci X Y 0 0 (Fin (k * s)) (Fin (k * s)) (Fin 0) (Fin 0) = ((Fin (k * a), Fin 0), (Fin (k * b), Fin 0)).
Proof.
  intros H Hk. set (q := X * X + Y * Y).
  assert (Q : 0 < q) by (unfold q; assert (0 <= X * X) by nra; assert (0 <= Y * Y) by nra; destruct H; nra).
  assert (S := sqrt_lt_R0 _ Q). assert (P0 := PI_RGT_0).
  unfold ut_linci. cbv zeta. destruct (Req_EM_T 0 0) as [_|]; [|contradiction].
  replace ((X + 0)² + (0 - Y)²) with q by (unfold q, Rsqr; ring).
  replace ((X - 0)² + (0 + Y)²) with q by (unfold q, Rsqr; ring).
  rewrite !(xdiv_fin _ (/ 2 * sqrt q)) by lra.
  assert (DG : (2 * (X * Y + 0 * 0))² + (X² - Y² + 0² - 0²)² = q * q) by (unfold q, Rsqr; ring).
  rewrite DG. assert (q * q <> 0) by nra. rewrite !(xdiv_fin _ (q * q)) by auto.
  unfold xq, xsub. cbn [xadd xneg xmul]. rewrite !x4_fin. unfold deg. cbn [xmul].
  eexists. eexists. split; [reflexivity|].
  assert (K : forall d1 d2 d3 d4, propagated (d1, d2, d3, d4) (k * s) (k * s) 0 0 = k * propagated (d1, d2, d3, d4) s s 0 0).
  { intros. rewrite propagated_scale by auto. unfold propagated. f_equal. ring. }
  rewrite !K. rewrite <- !Rmult_assoc, (Rmult_comm (180 / PI) k). reflexivity.
Qed.

Lemma inferred_widths ref X Y v : X <> 0 \/ Y <> 0 -> 0 <= v -> r_Rm ref = map Cconj (r_Rp ref) ->
  let w := linear1 X Y (Fin v) (Fin v) None in exists a b, ci_maj w = Fin a /\ ci_g w = Fin b /\
  Forall2 (fun rho c => ci_maj c = Fin (Cmod rho / sqrt 2 * a) /\ ci_g c = Fin (Cmod rho / sqrt 2 * b))
    (r_Rp ref) (conf_inferred false ref X Y 0 0 (ci_vc w)).
Proof.
  intros H Hv HR w. unfold w, linear1. rewrite !sqrt_fin by auto.
  assert (S2 : 0 < sqrt 2) by (apply sqrt_lt_R0; lra).
  destruct (linci_scale X Y (sqrt v) 0 H (Rle_refl 0)) as (a & b & E & _). rewrite E. cbn [ci_maj ci_g ci_vc]. unfold z196. cbn [xmul].
  exists (196 / 100 * a), (196 / 100 * b). split; [reflexivity|]. split; [reflexivity|].
  unfold conf_inferred. rewrite HR. cbv zeta. unfold nth_x. cbn [nth].
  generalize (r_Rp ref). intros l. clear HR. induction l as [|rho l IH]; cbn [map combine]; constructor; [|exact IH].
  cbn [xmul xadd fst snd Cconj].
  set (k := Cmod rho / sqrt 2).
  assert (Hk : 0 <= k) by (unfold k; apply Rmult_le_pos; [apply Cmod_ge_0 | left; apply Rinv_0_lt_compat; auto]).
  assert (V : forall x, x = k * k * v -> xsqrt (Fin x) = Fin (k * sqrt v)).
  { intros x ->. rewrite sqrt_fin by (apply Rmult_le_pos; auto; nra). f_equal. rewrite sqrt_mult by (auto; nra).
    rewrite sqrt_square by auto. reflexivity. }
  assert (KK : k * k = (fst rho * fst rho + snd rho * snd rho) / 2).
  { unfold k. replace (Cmod rho / sqrt 2 * (Cmod rho / sqrt 2)) with (Cmod rho ^ 2 / (sqrt 2) ^ 2) by (field; lra).
    rewrite pow2_sqrt by lra. unfold Cmod. rewrite pow2_sqrt by (assert (0 <= fst rho * fst rho) by nra; assert (0 <= snd rho * snd rho) by nra; cbn; nra). cbn. field. }
  rewrite !V by (rewrite KK; unfold Rsqr; field).
  destruct (linci_scale X Y (sqrt v) k H Hk) as (a' & b' & E' & E''). rewrite E in E'. injection E' as <- <-. rewrite E''.
  unfold z196. cbn [ci_maj ci_g xmul]. split; f_equal; ring.
Qed.

(** ** An exact decomposition for 1 x 1 matrices *)
Definition one_lib : lib :=
  {| l_parse := fun _ => None; l_lstsq := fun _ _ _ => Err LinAlgError; l_pinv := fun _ => Err LinAlgError;
     l_inv := fun _ => Err LinAlgError;
     l_svd := fun B => Ok ([[if Rle_dec 0 (nth 0 (nth 0 B []) 0) then 1 else -1]], [Rabs (nth 0 (nth 0 B []) 0)], [[1]]);
     l_eigvals := fun _ => Ok []; l_is_PD := fun _ => true; l_spacing := fun _ => 0;
     l_mvn := fun _ _ _ _ => Err ValueError; l_lomb := fun _ _ _ => []; l_argsort := fun _ => [] |}.
Lemma one_lib_example : svd_exact one_lib 1 /\ semidefinite 1 [[4]] /\ exists r k, nearestSPD one_lib 1 [[4]] = Ok (r, false, k).
Proof.
  split; [|split].
  - intros B U s V _ H. cbn [one_lib l_svd] in H. injection H as <- <- <-. split.
    + repeat split; intros i j Hi Hj; assert (i = 0%nat) as -> by lia; assert (j = 0%nat) as -> by lia; cbn;
        unfold entry_of, delta; cbn [nth Nat.eqb].
      * destruct (Rle_dec _ _); [rewrite Rabs_right by lra | rewrite Rabs_left by lra]; ring.
      * destruct (Rle_dec _ _); ring.
      * ring.
    + intros [|[|k]]; cbn; try lra; apply Rabs_pos.
  - split.
    + intros i j Hi Hj. assert (i = 0%nat) as -> by lia. assert (j = 0%nat) as -> by lia. reflexivity.
    + intros x. unfold entry_of. cbn. generalize (Rle_0_sqr (x O)). unfold Rsqr. lra.
  - eexists. eexists. unfold nearestSPD. cbn [one_lib l_svd bind]. cbn [spd_loop Nat.eqb orb one_lib l_eigvals bind Nat.ltb Nat.leb].
    cbn [l_is_PD one_lib negb]. reflexivity.
Qed.
