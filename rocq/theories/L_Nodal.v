(** The satellite sums. *)
From Coq Require Import Lia Lra QArith Qreals.
From Coquelicot Require Import Coquelicot.
From Verif Require Import M_Base M_Tables M_Harmonics S_Tables S_Harm S_Nodal L_Tables L_Angle L_Harm L_Harm2 L_Harm3.
Open Scope R_scope.

Lemma turn_cis x : turn x = cis (2 * PI * x).
Proof. reflexivity. Qed.
Lemma turn_add a b : turn (a + b) = Cmult (turn a) (turn b).
Proof. rewrite !turn_cis, <- cis_add. f_equal. ring. Qed.
Lemma turn_0 : turn 0 = RtoC 1.
Proof. rewrite turn_cis, Rmult_0_r. apply cis_0. Qed.
Lemma turn_int a b : is_integer (a - b) -> turn a = turn b.
Proof. intros [z Hz]. rewrite !turn_cis. replace (2 * PI * a) with (2 * PI * b + 2 * PI * IZR z) by (rewrite <- Hz; ring). apply cis_Z. Qed.

Lemma angle_range z : - PI < angle z <= PI.
Proof.
  assert (P := PI_RGT_0). destruct z as [x y]. unfold angle. assert (B := atan_bound (y / x)).
  destruct (Rlt_dec 0 x) as [H|H]; [lra|]. destruct (Rlt_dec x 0) as [H'|H'].
  - destruct (Rle_dec 0 y) as [Y|Y].
    + split; [lra|]. assert (Hy : y / x <= 0).
      { unfold Rdiv. assert (/ x < 0) by (apply Rinv_lt_0_compat; lra). nra. }
      destruct (Rle_lt_or_eq_dec _ _ Hy) as [L|E]; [assert (Q := atan_increasing _ _ L); rewrite atan_0 in Q; lra|rewrite E, atan_0; lra].
    + split; [|lra]. assert (Hy : 0 < y / x).
      { unfold Rdiv. assert (/ x < 0) by (apply Rinv_lt_0_compat; lra). nra. }
      assert (Q := atan_increasing _ _ Hy). rewrite atan_0 in Q. lra.
  - destruct (Rlt_dec 0 y); [lra|]. destruct (Rlt_dec y 0); lra.
Qed.
Lemma polar_form_angle z : polar_form z (Cmod z) (angle z / (2 * PI)).
Proof.
  assert (P := PI_RGT_0). split; [apply Cmod_ge_0|]. split.
  - assert (B := angle_range z). split.
    + apply Rmult_lt_reg_r with (2 * PI); [lra|]. unfold Rdiv at 2. rewrite Rmult_assoc, Rinv_l by lra. lra.
    + apply Rmult_le_reg_r with (2 * PI); [lra|]. unfold Rdiv at 1. rewrite Rmult_assoc, Rinv_l by lra. lra.
  - rewrite turn_cis. replace (2 * PI * (angle z / (2 * PI))) with (angle z) by (field; lra). now rewrite polar.
Qed.

(** ** tables *)
Lemma sat_tab : length sat_iconst = 162%nat /\ length sat_deldood = 162%nat /\ length sat_phcorr = 162%nat /\ length sat_amprat = 162%nat /\
  length sat_ilatfac = 162%nat.
Proof. vm_compute. auto. Qed.
Lemma sat_pos_b : forallb (fun i => Nat.leb 1 i) sat_iconst = true. Proof. vm_compute. reflexivity. Qed.
Lemma sat_dd_b : forallb (fun d => Nat.eqb (length d) 3) sat_deldood = true. Proof. vm_compute. reflexivity. Qed.

Lemma filter_combine {A B} (P : A -> bool) (a : list A) (b : list B) da db : length a = length b ->
  map snd (filter (fun p => P (fst p)) (combine a b)) = map (fun j => nth j b db) (filter (fun j => P (nth j a da)) (seq 0 (length a))).
Proof.
  revert b. induction a as [|x a IH]; intros [|y b] E; try discriminate; [reflexivity|]. injection E as E.
  cbn [length seq combine filter fst snd]. rewrite <- seq_shift. change (nth 0 (x :: a) da) with x.
  assert (Q : forall l, filter (fun j => P (nth j (x :: a) da)) (map S l) = map S (filter (fun j => P (nth j a da)) l)).
  { induction l as [|j l IHl]; [reflexivity|]. cbn [map filter]. change (nth (S j) (x :: a) da) with (nth j a da).
    destruct (P (nth j a da)); cbn [map]; now rewrite IHl. }
  rewrite Q. destruct (P x); cbn [map snd]; rewrite map_map, IH by assumption; reflexivity.
Qed.
Lemma filter_ext_in' {A} (P Q : A -> bool) l : (forall x, In x l -> P x = Q x) -> filter P l = filter Q l.
Proof. induction l as [|a l IH]; intros H; [reflexivity|]. cbn [filter]. rewrite (H a) by now left. rewrite IH by (intros; apply H; now right). reflexivity. Qed.

(** ** one satellite *)
Lemma slat_eq lat : lat <> 0 -> slat lat = sin (nodal_latitude lat * PI / 180).
Proof.
  intros H. unfold slat, nodal_latitude, eff_lat, rsign. replace (_ * PI / 180) with ((if Rlt_dec (Rabs lat) 5 then if Rlt_dec 0 lat then 5 else -5 else lat) * (PI / 180)) by field.
  f_equal. f_equal. destruct (Rlt_dec (Rabs lat) 5); [|reflexivity]. destruct (Rlt_dec 0 lat); [ring|]. destruct (Rlt_dec lat 0); [ring|lra].
Qed.
Lemma latfac_eq lat il : 0 < Rabs lat <= 90 -> latfac lat il = Fin (latitude_factor lat il).
Proof.
  intros H. assert (N := slat_nz lat H). assert (lat <> 0) by (intros ->; rewrite Rabs_R0 in H; lra).
  unfold latfac, latitude_factor. rewrite <- slat_eq by assumption.
  destruct il as [|[|[|il]]]; [reflexivity| | |reflexivity].
  - unfold xdiv. destruct (Req_EM_T (slat lat) 0); [contradiction|]. f_equal. replace (36309 / 10 ^ 5) with 0.36309 by lra. unfold Rdiv. ring.
  - f_equal. lra.
Qed.
Lemma xmul_fin a b : xmul (Fin a) (Fin b) = Fin (a * b).
Proof. reflexivity. Qed.
Lemma rdot3 (d : list Z) a b c : length d = 3%nat -> rdot (zrow d) [a; b; c] =
  IZR (nth 0 d 0%Z) * a + IZR (nth 1 d 0%Z) * b + IZR (nth 2 d 0%Z) * c.
Proof. destruct d as [|x [|y [|z [|w d]]]]; try discriminate. intros _. cbn. ring. Qed.
Lemma nth_combine {A B} (a : list A) (b : list B) j x y : length a = length b -> nth j (combine a b) (x, y) = (nth j a x, nth j b y).
Proof. apply combine_nth. Qed.
Lemma sat_uu_eq jd j : (j < 162)%nat -> is_integer (nth j (sat_uu jd) 0 - satellite_phase j jd).
Proof.
  intros Hj. unfold sat_uu, satellite_phase. destruct sat_tab as (_ & L1 & L2 & _).
  assert (A : firstn 3 (skipn 3 (astro jd)) = [fmod1 (perigee jd); fmod1 (node jd); fmod1 (perihelion jd)]) by (rewrite astro_eq; reflexivity).
  rewrite A.
  rewrite (nth_combine_map (fun p => fmod1 (rdot (zrow (fst p)) [fmod1 (perigee jd); fmod1 (node jd); fmod1 (perihelion jd)] + Q2R (snd p))) sat_deldood sat_phcorr j [] 0%Q 0)
    by (rewrite ?L1, ?L2; auto).
  cbn [fst snd].
  assert (D : length (nth j sat_deldood []) = 3%nat).
  { assert (Q := sat_dd_b). rewrite forallb_forall in Q. apply Nat.eqb_eq. apply Q. apply nth_In. now rewrite L1. }
  generalize dependent (nth j sat_deldood []). intros d D. rewrite rdot3 by assumption. apply int_wrap.
  replace (_ - _) with (IZR (nth 0 d 0%Z) * (fmod1 (perigee jd) - perigee jd) + (IZR (nth 1 d 0%Z) * (fmod1 (node jd) - node jd) +
    IZR (nth 2 d 0%Z) * (fmod1 (perihelion jd) - perihelion jd))) by ring.
  repeat apply int_add; apply int_mul; try apply int_IZR; apply int_fmod.
Qed.
Lemma sat_uu_len jd : length (sat_uu jd) = 162%nat.
Proof. unfold sat_uu. rewrite map_length, combine_length. destruct sat_tab as (_ & -> & -> & _). reflexivity. Qed.
Lemma sat_rr_len lat : length (sat_rr lat) = 162%nat.
Proof. unfold sat_rr. rewrite map_length, combine_length. destruct sat_tab as (_ & _ & _ & -> & ->). reflexivity. Qed.
Lemma sat_mat_eq jd lat j : 0 < Rabs lat <= 90 -> (j < 162)%nat -> nth j (sat_mat jd lat) None = Some (satellite_term lat j jd).
Proof.
  intros Hl Hj. unfold sat_mat, satellite_term. destruct sat_tab as (_ & _ & _ & L3 & L4).
  rewrite (nth_combine_map (fun p => match fst p with Fin r => Some (Cmult (RtoC r) (cis (2 * PI * snd p))) | _ => None end) (sat_rr lat) (sat_uu jd) j (Fin 0) 0 None)
    by (rewrite ?sat_rr_len, ?sat_uu_len; auto).
  cbn [fst snd].
  assert (E : nth j (sat_rr lat) (Fin 0) = Fin (Q2R (nth j sat_amprat 0%Q) * latitude_factor lat (nth j sat_ilatfac 0%nat))).
  { unfold sat_rr. rewrite (nth_combine_map (fun p => xmul (Fin (Q2R (fst p))) (latfac lat (snd p))) sat_amprat sat_ilatfac j 0%Q 0%nat (Fin 0)) by (rewrite ?L3, ?L4; auto).
    cbn [fst snd]. rewrite latfac_eq by assumption. apply xmul_fin. }
  rewrite E. do 2 f_equal. rewrite <- turn_cis. apply turn_int. now apply sat_uu_eq.
Qed.
Lemma sat_mat_len jd lat : length (sat_mat jd lat) = 162%nat.
Proof. unfold sat_mat. rewrite map_length, combine_length, sat_rr_len, sat_uu_len. reflexivity. Qed.

Lemma ocsum_map {A} (f : A -> option C) (g : A -> C) l : (forall x, In x l -> f x = Some (g x)) -> ocsum (map f l) = Some (csum (map g l)).
Proof.
  unfold ocsum, csum. induction l as [|a l IH]; intros H; cbn [map fold_right]; [reflexivity|].
  rewrite IH by (intros; apply H; now right). now rewrite (H a) by now left.
Qed.
Definition sat_sum (ic : list nat) (m : list (option C)) (ii : nat) : option C :=
  ocadd (Some (RtoC 1)) (ocsum (map snd (filter (fun p => Nat.eqb (pred (fst p)) ii) (combine ic m)))).
Definition sats_in (ic : list nat) (k : nat) : list nat := filter (fun j => Nat.eqb (nth j ic 0%nat) (S k)) (seq 0 (length ic)).
Lemma sat_sum_eq ic m k (g : nat -> C) : length ic = length m -> forallb (fun i => Nat.leb 1 i) ic = true ->
  (forall j, (j < length ic)%nat -> nth j m None = Some (g j)) ->
  sat_sum ic m k = Some (Cplus (RtoC 1) (csum (map g (sats_in ic k)))).
Proof.
  intros HL Hp Hg. unfold sat_sum. rewrite (filter_combine (fun i => Nat.eqb (pred i) k) ic m 0%nat None HL).
  assert (E : filter (fun j => Nat.eqb (pred (nth j ic 0%nat)) k) (seq 0 (length ic)) = sats_in ic k).
  { unfold sats_in. apply filter_ext_in'. intros j Hj. apply in_seq in Hj. rewrite forallb_forall in Hp.
    assert (P : (1 <= nth j ic 0)%nat) by (apply Nat.leb_le, Hp, nth_In; lia).
    destruct (nth j ic 0%nat) as [|n]; [lia|]. reflexivity. }
  rewrite E. rewrite (ocsum_map _ g); [reflexivity|].
  intros j Hj. apply Hg. unfold sats_in in Hj. apply filter_In in Hj. destruct Hj as [Hj _]. apply in_seq in Hj. lia.
Qed.
Lemma nth_map_seq {A} (f : nat -> A) n k d : (k < n)%nat -> nth k (map f (seq 0 n)) d = f k.
Proof. intros H. rewrite (nth_indep _ d (f 0%nat)) by now rewrite map_length, seq_length. rewrite map_nth, seq_nth by assumption. reflexivity. Qed.
Lemma sat_F_nth jd lat k : (k < 146)%nat -> nth k (sat_F jd lat) None = sat_sum sat_iconst (sat_mat jd lat) k.
Proof.
  intros Hk. assert (Hn : (k < nconst)%nat) by exact Hk. clear Hk. unfold sat_F. generalize dependent nconst. intros n Hn.
  generalize (sat_mat jd lat). generalize sat_iconst. intros ic m. rewrite nth_map_seq by assumption. reflexivity.
Qed.
Lemma sat_F_eq jd lat k : 0 < Rabs lat <= 90 -> (k < 146)%nat -> nth k (sat_F jd lat) None = Some (nodal_primary lat jd k).
Proof.
  intros Hl Hk. rewrite sat_F_nth by assumption. destruct sat_tab as (L0 & _).
  rewrite (sat_sum_eq sat_iconst (sat_mat jd lat) k (fun j => satellite_term lat j jd)).
  - unfold nodal_primary, satellites, sats_in. generalize sat_iconst. intros ic. generalize (fun j => satellite_term lat j jd). reflexivity.
  - now rewrite sat_mat_len.
  - exact sat_pos_b.
  - intros j Hj. apply sat_mat_eq; [assumption|]. now rewrite <- L0.
Qed.

Lemma primary_polar jd lat k : is_primary k -> 0 < Rabs lat <= 90 -> exists f u,
  nth k (F_col jd lat) None = Some f /\ nth k (U_col jd lat) None = Some u /\ polar_form (nodal_primary lat jd k) f u.
Proof.
  intros Hp Hl. rewrite F_primary, U_primary, sat_F_eq by (try assumption; exact (proj1 (proj1 (primary_in k) Hp))).
  cbn [option_map]. do 2 eexists. split; [reflexivity|]. split; [reflexivity|]. apply polar_form_angle.
Qed.
