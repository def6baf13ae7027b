(** The equator, latitudes inside five degrees, and the noise bands. *)
From Coq Require Import QArith Qreals Lia Lra.
From Coquelicot Require Import Coquelicot.
From Verif Require Import M_Base M_Tables M_Const M_Slvinit M_Harmonics M_Period M_Conf S_Tables L_Base L_Tables S_Basis S_Harm L_Harm L_Harm2.
Open Scope R_scope.

Lemma slat_0 : slat 0 = 0.
Proof.
  unfold slat, eff_lat. rewrite Rabs_R0. destruct (Rlt_dec 0 5); [|lra]. unfold rsign. destruct (Rlt_dec 0 0); [lra|].
  rewrite !Rmult_0_l. apply sin_0.
Qed.
Lemma latfac_0 : latfac 0 1 = PInf.
Proof.
  unfold latfac. rewrite slat_0. unfold xdiv. destruct (Req_EM_T 0 0); [|lra]. unfold sgn_inf.
  repeat match goal with |- context [if ?d then _ else _] => destruct d; try lra end; auto.
Qed.

Lemma nth_error_combine {A B} (a : list A) (b : list B) j x y : nth_error a j = Some x -> nth_error b j = Some y ->
  nth_error (combine a b) j = Some (x, y).
Proof.
  revert b j. induction a as [|u a IH]; intros [|v b] [|j] H1 H2; try discriminate; cbn in *.
  - congruence.
  - auto.
Qed.
Lemma nth_error_same {A B} (a : list A) (b : list B) j x : nth_error a j = Some x -> length a = length b -> exists y, nth_error b j = Some y.
Proof.
  intros H Hl. assert (X : (j < length b)%nat) by (rewrite <- Hl; apply nth_error_Some; congruence).
  apply nth_error_Some in X. destruct (nth_error b j); [eauto|contradiction].
Qed.
Lemma sat_lens : length sat_iconst = length sat_ilatfac /\ length sat_amprat = length sat_ilatfac /\
  length sat_deldood = length sat_ilatfac /\ length sat_phcorr = length sat_ilatfac.
Proof. repeat split; vm_compute; reflexivity. Qed.

Lemma ocsum_none l : In None l -> ocsum l = None.
Proof.
  unfold ocsum. induction l as [|a l IH]; [contradiction|]. intros [->|H]; cbn [fold_right]; [reflexivity|].
  rewrite IH by assumption. destruct a; reflexivity.
Qed.
Lemma sat_F_equator jd k : (k < 146)%nat -> diurnal_satellite k -> nth k (sat_F jd 0) None = None.
Proof.
  intros Hk (j & H1 & H2). destruct sat_lens as (L1 & L2 & L3 & L4).
  destruct (nth_error_same sat_ilatfac sat_amprat j _ H2 (eq_sym L2)) as [q Hq].
  destruct (nth_error_same sat_ilatfac sat_deldood j _ H2 (eq_sym L3)) as [d Hd].
  destruct (nth_error_same sat_ilatfac sat_phcorr j _ H2 (eq_sym L4)) as [c Hc].
  assert (Hm : nth_error (sat_mat jd 0) j = Some None).
  { unfold sat_mat. rewrite nth_error_map. unfold sat_rr, sat_uu.
    rewrite (nth_error_combine _ _ j (xmul (Fin (Q2R q)) (latfac 0 1)) (fmod1 (rdot (zrow d) (firstn 3 (skipn 3 (astro jd))) + Q2R c))).
    - cbn [option_map fst]. rewrite latfac_0. unfold xmul, sgn_inf. destruct (Rlt_dec 0 (Q2R q)); [reflexivity|]. destruct (Rlt_dec (Q2R q) 0); reflexivity.
    - rewrite nth_error_map, (nth_error_combine _ _ j q 1%nat) by assumption. reflexivity.
    - rewrite nth_error_map, (nth_error_combine _ _ j d c) by assumption. reflexivity. }
  unfold sat_F. set (f := fun ii => ocadd _ _). rewrite (nth_indep _ None (f 0%nat)) by (rewrite map_length, seq_length; exact Hk).
  rewrite (map_nth f). rewrite (@seq_nth 146 0 k 0 Hk : nth k (seq 0 nconst) 0%nat = k). unfold f. rewrite ocsum_none; [reflexivity|].
  apply in_map_iff. exists (S k, None). split; [reflexivity|]. apply filter_In. split; [|apply Nat.eqb_refl].
  exact (nth_error_In _ _ (nth_error_combine _ _ j _ _ H1 Hm)).
Qed.
Lemma F_equator jd k : is_primary k -> diurnal_satellite k -> nth k (F_col jd 0) None = None /\ nth k (U_col jd 0) None = None.
Proof.
  intros Hp Hd. rewrite F_primary, U_primary by assumption.
  rewrite (sat_F_equator jd k (proj1 (proj1 (primary_in k) Hp)) Hd). split; reflexivity.
Qed.

Lemma cols_slat jd lat lat' : slat lat = slat lat' -> F_col jd lat = F_col jd lat' /\ U_col jd lat = U_col jd lat'.
Proof.
  intros H. assert (E : sat_rr lat = sat_rr lat').
  { unfold sat_rr. apply map_ext. intros (q & il). cbn [fst snd]. f_equal. unfold latfac. rewrite H. reflexivity. }
  assert (E2 : sat_F jd lat = sat_F jd lat') by (unfold sat_F, sat_mat; rewrite E; reflexivity).
  unfold F_col, U_col. rewrite E2. split; reflexivity.
Qed.
Lemma near_equator jd lat : 0 < Rabs lat < 5 ->
  F_col jd lat = F_col jd (if Rlt_dec 0 lat then 5 else -5) /\ U_col jd lat = U_col jd (if Rlt_dec 0 lat then 5 else -5).
Proof.
  intros [H1 H2]. apply cols_slat. unfold slat. apply f_equal. apply f_equal2; [|reflexivity].
  unfold eff_lat, rsign. destruct (Rlt_dec (Rabs lat) 5); [|lra]. destruct (Rlt_dec 0 lat) as [P|P].
  - rewrite (Rabs_pos_eq 5) by lra. destruct (Rlt_dec 5 5); lra.
  - destruct (Rlt_dec lat 0) as [N|N].
    + rewrite (Rabs_left (-5)) by lra. destruct (Rlt_dec (- -5) 5); lra.
    + replace lat with 0 in H1 by lra. rewrite Rabs_R0 in H1. lra.
Qed.
