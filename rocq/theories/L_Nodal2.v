(** Shallow-water constituents and the complete basis functions. *)
From Coq Require Import Lia Lra QArith Qreals.
From Coquelicot Require Import Coquelicot.
From Verif Require Import M_Base M_Tables M_Harmonics S_Tables S_Basis S_Harm S_Nodal L_Tables L_Angle L_Harm L_Harm2 L_Basis L_Nodal.
Open Scope R_scope.

Lemma rpow_power x c : 0 <= x -> rpow x c = power x c.
Proof. intros H. unfold rpow, power, Rpower. destruct (Req_EM_T x 0); destruct (Rlt_dec 0 x); try lra; reflexivity. Qed.
Lemma oprod_some (l : list nat) (f : nat -> option R) (g : nat -> R) : (forall r, In r l -> f r = Some (g r)) ->
  oprod (map f l) = Some (rprod (map g l)).
Proof.
  unfold oprod, rprod. induction l as [|a l IH]; intros H; cbn [map fold_right]; [reflexivity|].
  rewrite IH by (intros; apply H; now right). now rewrite (H a) by now left.
Qed.

Lemma shallow_polar jd lat k : is_shallow k -> 0 < Rabs lat <= 90 -> exists fs us : nat -> R,
  (forall r, In r (rows_of k) -> polar_form (nodal_primary lat jd (row_parent r)) (fs r) (us r)) /\
  nth k (F_col jd lat) None = Some (rprod (map (fun r => power (fs r) (Rabs (row_coef r))) (rows_of k))) /\
  nth k (U_col jd lat) None = Some (rsum (map (fun r => row_coef r * us r) (rows_of k))).
Proof.
  intros Hs Hl. exists (fun r => oget0 (nth (row_parent r) (F_col jd lat) None)), (fun r => oget0 (nth (row_parent r) (U_col jd lat) None)).
  assert (G : forall r, In r (rows_of k) -> exists f u, nth (row_parent r) (F_col jd lat) None = Some f /\ nth (row_parent r) (U_col jd lat) None = Some u /\
    polar_form (nodal_primary lat jd (row_parent r)) f u) by (intros r Hr; apply primary_polar; [exact (row_parent_primary k r Hr Hs)|assumption]).
  split; [|split].
  - intros r Hr. destruct (G r Hr) as (f & u & -> & -> & P). exact P.
  - rewrite F_col_eq by assumption. apply oprod_some. intros r Hr. destruct (G r Hr) as (f & u & -> & _ & P). cbn [option_map oget0].
    f_equal. apply rpow_power. exact (proj1 P).
  - rewrite U_col_eq by assumption. apply osum_some. intros r Hr. destruct (G r Hr) as (f & u & _ & -> & _). cbn [omul oget0].
    f_equal. ring.
Qed.

(** integer multipliers *)
Definition mult_ok (i : nat) (q : Q) : bool := (Nat.eqb i 118 || (Pos.eqb (Qden q) 1 && negb (Z.eqb (Qnum q) 0)))%bool.
Lemma mult_ok_of k i q : mult_ok i q = true -> i = S k -> k <> 117%nat -> Q2R q = IZR (Qnum q) /\ Qnum q <> 0%Z.
Proof.
  unfold mult_ok. intros Q -> Hk. apply orb_prop in Q. destruct Q as [Q|Q]; [apply Nat.eqb_eq in Q; lia|].
  apply andb_prop in Q. destruct Q as [Q1 Q2]. apply Pos.eqb_eq in Q1. apply negb_true_iff in Q2. apply Z.eqb_neq in Q2.
  split; [|assumption]. unfold Q2R. rewrite Q1. lra.
Qed.
Definition mult_row (r : nat) : bool := mult_ok (nth r shallow_iconst 0%nat) (nth r shallow_coef 0%Q).
Lemma mult_b : forallb mult_row (seq 0 (length shallow_coef)) = true.
Proof. vm_compute. reflexivity. Qed.
Lemma rows_in k r : In r (rows_of k) -> In r (seq 0 (length shallow_coef)) /\ nth r shallow_iconst 0%nat = S k.
Proof.
  unfold rows_of. generalize (seq 0 (length shallow_coef)). intros l H. apply filter_In in H. destruct H as [H1 H2].
  split; [exact H1|]. apply Nat.eqb_eq. exact H2.
Qed.
Lemma mult_in r : In r (seq 0 (length shallow_coef)) -> mult_row r = true.
Proof. exact (proj1 (forallb_forall _ _) mult_b r). Qed.
Lemma row_mult_eq k r : k <> 117%nat -> In r (rows_of k) -> row_coef r = IZR (row_mult r) /\ row_mult r <> 0%Z.
Proof.
  intros Hk Hr. destruct (rows_in k r Hr) as [H1 H2]. apply mult_in in H1. unfold mult_row in H1. unfold row_coef, row_mult.
  generalize dependent (nth r shallow_coef 0%Q). intros q H1. exact (mult_ok_of k _ q H1 H2 Hk).
Qed.

Lemma conj_polar r x : Cconj (Cmult (RtoC r) (turn x)) = Cmult (RtoC r) (turn (- x)).
Proof.
  unfold turn. replace (2 * PI * - x) with (- (2 * PI * x)) by ring. rewrite cos_neg, sin_neg. apply C_eq; cbn; ring.
Qed.
Lemma power_nat r n : 0 <= r -> (0 < n)%nat -> power r (INR n) = r ^ n.
Proof.
  intros H Hn. unfold power. destruct (Rlt_dec 0 r) as [P|P].
  - rewrite <- (Rpower_pow n r P). reflexivity.
  - replace r with 0 by lra. symmetry. apply pow_i. exact Hn.
Qed.
Lemma cprod_repeat r x n : cprod (repeat (Cmult (RtoC r) (turn x)) n) = Cmult (RtoC (r ^ n)) (turn (INR n * x)).
Proof.
  unfold cprod. induction n as [|n IH]; [cbn [repeat fold_right INR pow]; rewrite Rmult_0_l, turn_0; apply C_eq; cbn; ring|].
  cbn [repeat fold_right]. rewrite IH. rewrite S_INR. replace ((INR n + 1) * x) with (x + INR n * x) by ring. rewrite turn_add.
  cbn [pow]. generalize (turn x) (turn (INR n * x)) (r ^ n). intros a b q. apply C_eq; cbn; ring.
Qed.
Lemma cpow_polar z r x n : polar_form z r x -> n <> 0%Z -> cpow z n = Cmult (RtoC (power r (Rabs (IZR n)))) (turn (IZR n * x)).
Proof.
  intros (H1 & _ & ->) Hn. unfold cpow. assert (A : Rabs (IZR n) = INR (Z.abs_nat n)) by (rewrite INR_IZR_INZ, Zabs2Nat.id_abs, abs_IZR; reflexivity).
  rewrite A, power_nat by (try assumption; lia). destruct (Z.ltb_spec n 0) as [L|L].
  - rewrite conj_polar, cprod_repeat. do 2 f_equal. rewrite <- A, Rabs_left by (apply IZR_lt; lia). ring.
  - rewrite cprod_repeat. do 2 f_equal. rewrite <- A, Rabs_pos_eq by (apply IZR_le; lia). ring.
Qed.

Lemma cprod_polar (rows : list nat) (z : nat -> C) (f u : nat -> R) : (forall r, In r rows -> z r = Cmult (RtoC (f r)) (turn (u r))) ->
  cprod (map z rows) = Cmult (RtoC (rprod (map f rows))) (turn (rsum (map u rows))).
Proof.
  unfold cprod, rprod, rsum. induction rows as [|r l IH]; intros H; cbn [map fold_right].
  - rewrite turn_0. apply C_eq; cbn; ring.
  - rewrite IH by (intros; apply H; now right). rewrite (H r) by now left. rewrite turn_add.
    generalize (turn (u r)) (turn (fold_right Rplus 0 (map u l))) (fold_right Rmult 1 (map f l)) (f r). intros a b q w. apply C_eq; cbn; ring.
Qed.

Lemma nodal_shallow lat jd k : is_shallow k ->
  nodal lat jd k = cprod (map (fun r => cpow (nodal_primary lat jd (row_parent r)) (row_mult r)) (rows_of k)).
Proof. intros Hs. unfold nodal. destruct (shallow_data k Hs) as [i ->]. reflexivity. Qed.
Lemma nodal_prim lat jd k : is_primary k -> nodal lat jd k = nodal_primary lat jd k.
Proof. intros Hp. destruct (primary_data k Hp) as (_ & d & s & _ & _ & _ & E). unfold nodal. rewrite E. reflexivity. Qed.

Lemma nodal_cols lat jd k : (k < 146)%nat -> k <> 117%nat -> 0 < Rabs lat <= 90 -> exists f u,
  nth k (F_col jd lat) None = Some f /\ nth k (U_col jd lat) None = Some u /\ nodal lat jd k = Cmult (RtoC f) (turn u).
Proof.
  intros Hk HM Hl. destruct (shallow_or_primary k Hk) as [Hs|Hp].
  - destruct (shallow_polar jd lat k Hs Hl) as (fs & us & P & EF & EU). do 2 eexists. split; [exact EF|]. split; [exact EU|].
    rewrite nodal_shallow by assumption. apply cprod_polar. intros r Hr. destruct (row_mult_eq k r HM Hr) as [E N]. rewrite E.
    apply cpow_polar; auto.
  - destruct (primary_polar jd lat k Hp Hl) as (f & u & EF & EU & _ & _ & P). exists f, u. rewrite nodal_prim by assumption. auto.
Qed.

Lemma wave_turn f u v : wave (Some f) (Some u) (Some v) = Some (Cmult (Cmult (RtoC f) (turn u)) (turn v)).
Proof. unfold wave. f_equal. rewrite <- Cmult_assoc, <- turn_add. unfold turn. apply C_eq; cbn; ring. Qed.

Definition nodal_part (g : ngflgs) (tref lat x : R) (k : nat) : C :=
  if NodsatNone g then RtoC 1 else nodal lat (if NodsatLint g then tref else x) k.
Definition phase_part (g : ngflgs) (tref x : R) (k : nat) : R :=
  if GwchNone g then (x - tref) * Derive (arg k) tref
  else if GwchLint g then arg k tref + (x - tref) * Derive (arg k) tref else arg k x.
Lemma one_turn : RtoC 1 = Cmult (RtoC 1) (turn 0).
Proof. rewrite turn_0. apply C_eq; cbn; ring. Qed.
Lemma nodal_part_eq g tref lat x k : (k < 146)%nat -> k <> 117%nat -> 0 < Rabs lat <= 90 \/ NodsatNone g = true ->
  exists f u, F_at g tref lat x k = Some f /\ U_at g tref lat x k = Some u /\ nodal_part g tref lat x k = Cmult (RtoC f) (turn u).
Proof.
  intros Hk HM Hl. unfold F_at, U_at, nodal_part. destruct (NodsatNone g).
  - exists 1, 0. split; [reflexivity|]. split; [reflexivity|exact one_turn].
  - destruct Hl as [Hl|Hl]; [|discriminate]. apply nodal_cols; assumption.
Qed.
Lemma d24_line x t f : 24 * (x - t) * f = (x - t) * (24 * f). Proof. ring. Qed.
Lemma phase_part_eq g tref x k : (k < 146)%nat -> k <> 117%nat -> exists v, V_at g tref x k = Some v /\ turn v = turn (phase_part g tref x k).
Proof.
  intros Hk HM. unfold phase_part. destruct (GwchNone g) eqn:G1.
  - rewrite (is_derive_unique _ _ _ (lin_derive tref k Hk)). unfold V_at. rewrite G1. eexists. split; [reflexivity|].
    rewrite d24_line. reflexivity.
  - destruct (GwchLint g) eqn:G2.
    + destruct (V_at_lin g tref x k Hk HM G1 G2) as (v & E & I). exists v. split; [exact E|]. exact (turn_int _ _ I).
    + unfold V_at. rewrite G1, G2. destruct (V_wrap x k Hk) as (v & E & I). exists v. split; [exact E|]. exact (turn_int _ _ (I HM)).
Qed.
Lemma basis_tidal g tref lat x k : (k < 146)%nat -> k <> 117%nat -> 0 < Rabs lat <= 90 \/ NodsatNone g = true ->
  basis_at g tref lat x k = Some (tidal_basis g tref lat x k).
Proof.
  intros Hk HM Hl. destruct (nodal_part_eq g tref lat x k Hk HM Hl) as (f & u & E1 & E2 & E3).
  destruct (phase_part_eq g tref x k Hk HM) as (v & E4 & E5).
  unfold basis_at. rewrite E1, E2, E4, wave_turn, E5, <- E3. reflexivity.
Qed.

Lemma div24 q : 24 * q / 24 = q. Proof. field. Qed.
Lemma freq_derive tref k : (k < 146)%nat -> Derive (arg k) tref / 24 = nth k (linearized_freqs tref) 0.
Proof. intros Hk. rewrite (is_derive_unique _ _ _ (lin_derive tref k Hk)). apply div24. Qed.
Lemma freqs_derive tref lind : (forall k, In k lind -> (k < 146)%nat) ->
  map (fun k => Derive (arg k) tref / 24) lind = map (fun i => nth i (linearized_freqs tref) 0) lind.
Proof. intros H. apply map_ext_in. intros k Hk. exact (freq_derive tref k (H k Hk)). Qed.
Lemma ut_E_tidal t tref frq lind lat g : (forall k, In k lind -> (k < 146)%nat /\ k <> 117%nat) -> 0 < Rabs lat <= 90 \/ NodsatNone g = true ->
  frq = map (fun k => Derive (arg k) tref / 24) lind ->
  ut_E t tref frq lind lat g = map (fun x => map (fun k => Some (tidal_basis g tref lat x k)) lind) t.
Proof.
  intros Hk Hl ->. rewrite freqs_derive by (intros k H; exact (proj1 (Hk k H))).
  rewrite ut_E_rows. apply map_ext. intros x. apply map_ext_in. intros k H. destruct (Hk k H). exact (basis_tidal g tref lat x k H0 H1 Hl).
Qed.
