(** Nodal corrections that never vanish. *)
From Coq Require Import Lia Lra QArith Qreals Qabs.
From Verif Require Import M_Base M_Bunch M_Lib M_Tables M_Const M_Harmonics S_Harm S_Tables S_Nodal S_InferAccept
  L_Base L_Tables L_Harm L_Harm2 L_Harm3 L_Angle L_Nodal L_Nodal2 L_Select L_InferAccept3 L_InferAccept4.
Open Scope R_scope.

Lemma sin_12 : 0.0832 <= sin (/ 12).
Proof.
  assert (P := PI2_3_2). assert (H : 0 <= / 12) by lra. assert (H2 : / 12 <= PI) by lra.
  destruct (SIN (/ 12) H H2) as [A _]. eapply Rle_trans; [|exact A]. unfold sin_lb, sin_approx, sum_f_R0, sin_term. cbn. lra.
Qed.
Lemma lat_sine la : 0 < Rabs la <= 90 -> 0.0832 <= Rabs (sin (nodal_latitude la * PI / 180)) <= 1.
Proof.
  intros H. assert (P := PI2_3_2). assert (P4 := PI_RGT_0).
  assert (G : forall x, 5 <= x <= 90 -> 0.0832 <= sin (x * PI / 180) <= 1).
  { intros x Hx. split; [|apply SIN_bound]. eapply Rle_trans; [exact sin_12|].
    apply sin_incr_1; try lra; nra. }
  assert (E : 5 <= Rabs (nodal_latitude la) <= 90).
  { unfold nodal_latitude. destruct (Rlt_dec (Rabs la) 5); [|lra]. destruct (Rlt_dec 0 la); [rewrite Rabs_pos_eq; lra|rewrite Rabs_left; lra]. }
  revert E. generalize (nodal_latitude la). intros x E. unfold Rabs in E. destruct (Rcase_abs x) as [N|N].
  - specialize (G (- x) E). replace (- x * PI / 180) with (- (x * PI / 180)) in G by lra. rewrite sin_neg in G. rewrite Rabs_left by lra. exact G.
  - specialize (G x E). rewrite Rabs_pos_eq by lra. exact G.
Qed.
Lemma factor_bound la cl : 0 < Rabs la <= 90 -> Rabs (latitude_factor la cl) <= match cl with 1%nat => 4.4 | 2%nat => 2.6 | _ => 1 end.
Proof.
  intros H. assert (S := lat_sine la H). unfold latitude_factor. revert S. generalize (sin (nodal_latitude la * PI / 180)). intros s S.
  destruct cl as [|[|[|cl]]]; cbv zeta.
  - rewrite Rabs_R1. lra.
  - assert (NZ : Rabs s <> 0) by lra.
    unfold Rdiv. rewrite Rabs_mult, Rabs_Rinv by (intros ->; rewrite Rabs_R0 in S; lra). rewrite Rabs_mult, (Rabs_pos_eq 0.36309) by lra.
    apply (Rmult_le_reg_r (Rabs s)); [lra|]. rewrite Rmult_assoc, Rinv_l, Rmult_1_r by exact NZ.
    assert (Q : s ^ 2 = Rabs s ^ 2) by (unfold Rabs; destruct (Rcase_abs s); ring). rewrite Q. revert S. generalize (Rabs s). intros a S.
    unfold Rabs. destruct (Rcase_abs (1 - 5 * a ^ 2)); nra.
  - rewrite Rabs_mult, Rabs_pos_eq by lra. lra.
  - rewrite Rabs_R1. lra.
Qed.

(** ** the table *)
Definition class_q (cl : nat) : Q := match cl with 1%nat => 44 # 10 | 2%nat => 26 # 10 | _ => 1 end.
Definition size_of (am : list Q) (il l : list nat) : Q :=
  fold_right (fun j a => Qplus (Qmult (Qabs (nth j am 0%Q)) (class_q (nth j il 0%nat))) a) 0%Q l.
Definition exceptional (k : nat) : bool := Nat.eqb k 15 || Nat.eqb k 27 || Nat.eqb k 28.
Definition small_b (k : nat) : bool := exceptional k || negb (Qle_bool 1 (size_of sat_amprat sat_ilatfac (satellites k))).
Lemma all_small : forallb small_b (seq 0 146) = true.
Proof. vm_compute. reflexivity. Qed.
Definition parent_b (r : nat) : bool := negb (exceptional (row_parent r)).
Lemma all_parents : forallb (fun k => forallb parent_b (rows_of k)) (seq 0 146) = true.
Proof. vm_compute. reflexivity. Qed.

Lemma class_bound la cl : 0 < Rabs la <= 90 -> Rabs (latitude_factor la cl) <= Q2R (class_q cl).
Proof.
  intros H. eapply Rle_trans; [exact (factor_bound la cl H)|].
  destruct cl as [|[|[|cl]]]; unfold class_q, Q2R; cbn [Qnum Qden]; lra.
Qed.
Lemma abs_Q2R q : Rabs (Q2R q) = Q2R (Qabs q).
Proof.
  apply Qabs_case; intros H; apply Qle_Rle in H; replace (Q2R 0) with 0 in H by (unfold Q2R; cbn; lra).
  - now apply Rabs_pos_eq.
  - rewrite Q2R_opp. now rewrite Rabs_left1.
Qed.
Lemma size_bound la am il l : 0 < Rabs la <= 90 ->
  rsum (map (fun j => Rabs (Q2R (nth j am 0%Q) * latitude_factor la (nth j il 0%nat))) l) <= Q2R (size_of am il l).
Proof.
  intros H. unfold size_of. induction l as [|j l IH]; cbn [map fold_right].
  - unfold rsum, Q2R. cbn. lra.
  - rewrite Q2R_plus, Q2R_mult, <- abs_Q2R.
    match goal with |- rsum (?a :: ?b) <= _ => change (rsum (a :: b)) with (a + rsum b) end.
    rewrite Rabs_mult. apply Rplus_le_compat; [|exact IH]. apply Rmult_le_compat_l; [apply Rabs_pos|]. now apply class_bound.
Qed.
Lemma small_q q : negb (Qle_bool 1 q) = true -> Q2R q < 1.
Proof.
  intros S. apply Bool.negb_true_iff in S.
  assert (L : (q < 1)%Q). { apply Qnot_le_lt. intros C. apply Qle_bool_iff in C. congruence. }
  apply Qlt_Rlt in L. replace (Q2R 1) with 1 in L by (unfold Q2R; cbn; lra). exact L.
Qed.
Lemma small_k k : (k < 146)%nat -> exceptional k = false -> Q2R (size_of sat_amprat sat_ilatfac (satellites k)) < 1.
Proof.
  intros Hk EX. apply small_q. assert (S := proj1 (forallb_forall _ _) all_small k (proj2 (in_seq _ _ _) (conj (Nat.le_0_l k) Hk))).
  unfold small_b in S. destruct (Bool.orb_prop _ _ S) as [C|C]; [congruence|exact C].
Qed.
Lemma primary_lasts la jd k : (k < 146)%nat -> exceptional k = false -> 0 < Rabs la <= 90 -> nodal_primary la jd k <> RtoC 0.
Proof.
  intros Hk EX H. apply small_lasts. exact (Rle_lt_trans _ _ _ (size_bound la sat_amprat sat_ilatfac (satellites k) H) (small_k k Hk EX)).
Qed.
Lemma conj_nz z : z <> RtoC 0 -> Cconj z <> RtoC 0.
Proof. intros N E. apply N. destruct z as [a b]. unfold Cconj in E. cbn [fst snd] in E. injection E as E1 E2. unfold RtoC. f_equal; lra. Qed.
Lemma cprod_nz l : (forall z, In z l -> z <> RtoC 0) -> cprod l <> RtoC 0.
Proof.
  induction l as [|z l IH]; intros H; unfold cprod; cbn [fold_right].
  - intros E. injection E as E. lra.
  - apply Cmult_neq_0; [apply H; now left|apply IH; intros y Hy; apply H; now right].
Qed.
Lemma cpow_nz z n : z <> RtoC 0 -> cpow z n <> RtoC 0.
Proof.
  intros N. unfold cpow. apply cprod_nz. intros y Hy. apply repeat_spec in Hy. subst y. destruct (Z.ltb n 0); [now apply conj_nz|exact N].
Qed.
Lemma exceptional_names : map (fun k => nth k const_name EmptyString) [15; 27; 28; 117]%nat = ["NO1"; "OO1"; "UPS1"; "M7"]%string.
Proof. vm_compute. reflexivity. Qed.
Lemma each_parent (f : nat -> list nat) ks : forallb (fun k => forallb parent_b (f k)) ks = true ->
  forall k r, In k ks -> In r (f k) -> exceptional (row_parent r) = false.
Proof.
  intros H k r Hk Hr. assert (Q := proj1 (forallb_forall _ ks) H k Hk). assert (Q2 := proj1 (forallb_forall parent_b (f k)) Q r Hr).
  apply Bool.negb_true_iff. exact Q2.
Qed.
Lemma good_parent k r : (k < 146)%nat -> In r (rows_of k) -> exceptional (row_parent r) = false.
Proof. intros Hk Hr. refine (each_parent rows_of (seq 0 146) all_parents k r _ Hr). apply in_seq. lia. Qed.
Lemma doodson_len : length const_doodson = 146%nat. Proof. vm_compute. reflexivity. Qed.
Lemma primary_lt k : is_primary k -> (k < 146)%nat.
Proof. intros [d D]. rewrite <- doodson_len. apply nth_error_Some. congruence. Qed.
Lemma nodal_nz la jd k : (k < 146)%nat -> exceptional k = false -> 0 < Rabs la <= 90 -> is_primary k \/ is_shallow k -> nodal la jd k <> RtoC 0.
Proof.
  intros Hk EX H [P|P].
  - rewrite nodal_prim by exact P. now apply primary_lasts.
  - rewrite nodal_shallow by exact P. apply cprod_nz. intros z Hz. apply in_map_iff in Hz. destruct Hz as (r & <- & Hr). apply cpow_nz.
    apply primary_lasts; [|exact (good_parent k r Hk Hr)|exact H]. apply primary_lt. exact (row_parent_primary k r Hr P).
Qed.
Lemma not_exceptional k n : nth_error const_name k = Some n -> ~ In n ["NO1"; "OO1"; "UPS1"; "M7"]%string -> exceptional k = false /\ k <> 117%nat.
Proof.
  intros E NE. assert (EN := nth_error_nth _ _ EmptyString E). rewrite <- exceptional_names in NE.
  assert (K : forall j, In j [15; 27; 28; 117]%nat -> k <> j).
  { intros j Hj ->. apply NE. rewrite <- EN. exact (in_map (fun k => nth k const_name EmptyString) _ _ Hj). }
  split; [|apply K; cbn; tauto].
  unfold exceptional. assert (A := K 15%nat ltac:(cbn; tauto)). assert (B := K 27%nat ltac:(cbn; tauto)). assert (D := K 28%nat ltac:(cbn; tauto)).
  apply Nat.eqb_neq in A, B, D. rewrite A, B, D. reflexivity.
Qed.
Lemma table_lasting la n : In n const_name -> ~ In n ["NO1"; "OO1"; "UPS1"; "M7"]%string -> 0 < Rabs la <= 90 -> lasting la n.
Proof.
  intros Hn NE H. destruct (constit_index_known n Hn) as [k E]. exists k. split; [exact E|]. apply constit_index_iff in E.
  destruct (not_exceptional k n E NE) as [EX K7]. split; [exact K7|]. intros jd. apply nodal_nz; [exact (names_lt _ _ E)|exact EX|exact H|destruct (shallow_or_primary k (names_lt _ _ E)); auto].
Qed.
