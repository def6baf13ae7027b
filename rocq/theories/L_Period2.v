(** Spectra of evenly spaced residuals: values, scaling, Parseval, cross spectrum. *)
From Coq Require Import Lia Lra Psatz.
From Verif Require Import M_Base M_Lib M_Slvinit M_Period S_Conf S_Period L_Base L_Conf6 L_Period.
Open Scope R_scope.

(** ** Finite trigonometric sums *)
Lemma sum_over_nsum n f : sum_over n f = nsum n f.
Proof. apply rsum_nsum. Qed.
Lemma cos_sum x n : 2 * sin (x / 2) * nsum n (fun k => cos (INR k * x)) = sin ((INR n - / 2) * x) + sin (x / 2).
Proof.
  induction n as [|n IH].
  - cbn [nsum INR]. replace ((0 - / 2) * x) with (- (x / 2)) by field. rewrite sin_neg. ring.
  - cbn [nsum]. rewrite Rmult_plus_distr_l, IH, S_INR.
    replace ((INR n + 1 - / 2) * x) with (INR n * x + x / 2) by field.
    replace ((INR n - / 2) * x) with (INR n * x - x / 2) by field.
    rewrite sin_plus, sin_minus. ring.
Qed.
Lemma sin_Zpi z : sin (IZR z * PI) = 0.
Proof. apply sin_eq_0_1. now exists z. Qed.
Lemma sin_frac_nz n m : (0 < n)%nat -> (- Z.of_nat n < m < Z.of_nat n)%Z -> m <> 0%Z -> sin (PI * IZR m / INR n) <> 0.
Proof.
  intros Hn Hm Hz H. apply sin_eq_0_0 in H. destruct H as [k Hk].
  assert (HN : 0 < INR n) by now apply lt_0_INR. pose proof PI_RGT_0.
  assert (E : IZR m = IZR k * IZR (Z.of_nat n)).
  { rewrite <- INR_IZR_INZ. apply Rmult_eq_reg_l with (PI / INR n).
    - replace (PI / INR n * IZR m) with (PI * IZR m / INR n) by (field; lra). rewrite Hk. field. lra.
    - apply Rgt_not_eq. apply Rdiv_lt_0_compat; lra. }
  rewrite <- mult_IZR in E. apply eq_IZR in E. destruct (Z.eq_dec k 0) as [-> | Hk0]; [lia |]. nia.
Qed.
(** sum of the n-th roots of unity *)
Lemma cos_roots n m : (0 < n)%nat -> (- Z.of_nat n < m < Z.of_nat n)%Z ->
  nsum n (fun k => cos (2 * PI * INR k * IZR m / INR n)) = if Z.eq_dec m 0 then INR n else 0.
Proof.
  intros Hn Hm. assert (HN : 0 < INR n) by now apply lt_0_INR.
  destruct (Z.eq_dec m 0) as [-> | Hz].
  - rewrite (nsum_ext n _ (fun _ => 1)).
    + clear. induction n; [reflexivity |]. cbn [nsum]. rewrite IHn, S_INR. reflexivity.
    + intros i _. replace (2 * PI * INR i * 0 / INR n) with 0 by (field; lra). apply cos_0.
  - set (x := 2 * PI * IZR m / INR n).
    rewrite (nsum_ext n _ (fun k => cos (INR k * x))) by (intros; f_equal; unfold x; field; lra).
    assert (Hs : sin (x / 2) <> 0).
    { replace (x / 2) with (PI * IZR m / INR n) by (unfold x; field; lra). now apply sin_frac_nz. }
    pose proof (cos_sum x n) as H.
    replace ((INR n - / 2) * x) with (- (x / 2) + 2 * IZR m * PI) in H by (unfold x; field; lra).
    assert (E : sin (- (x / 2) + 2 * IZR m * PI) = - sin (x / 2)).
    { rewrite sin_plus, sin_neg. replace (2 * IZR m * PI) with (IZR (2 * m) * PI) by (rewrite mult_IZR; ring).
      rewrite sin_Zpi. replace (IZR (2 * m) * PI) with (2 * (IZR m * PI)) by (rewrite mult_IZR; ring).
      rewrite cos_2a_sin, sin_Zpi. ring. }
    rewrite E in H. apply Rmult_eq_reg_l with (2 * sin (x / 2)); [lra |]. intros H0. apply Hs. lra.
Qed.

(** ** Parseval for real series *)
Section Parseval.
Variables (n : nat) (a b : nat -> R).
Hypothesis Hn : (0 < n)%nat.
Notation ang k j := (2 * PI * INR k * INR j / INR n).
Notation Ca k := (nsum n (fun j => a j * cos (ang k j))).
Notation Sa k := (nsum n (fun j => a j * sin (ang k j))).
Notation Cb k := (nsum n (fun j => b j * cos (ang k j))).
Notation Sb k := (nsum n (fun j => b j * sin (ang k j))).

Lemma nsum_mult m (f g : nat -> R) : nsum m f * nsum m g = nsum m (fun i => nsum m (fun j => f i * g j)).
Proof.
  rewrite <- nsum_scal_r. apply nsum_ext. intros i _. now rewrite nsum_scal.
Qed.
Lemma parseval : nsum n (fun k => Ca k * Cb k + Sa k * Sb k) = INR n * nsum n (fun j => a j * b j).
Proof.
  assert (HN : 0 < INR n) by now apply lt_0_INR.
  rewrite (nsum_ext n _ (fun k => nsum n (fun i => nsum n (fun j => a i * b j * cos (2 * PI * INR k * IZR (Z.of_nat i - Z.of_nat j) / INR n))))).
  - rewrite nsum_swap. rewrite <- nsum_scal. apply nsum_ext. intros i Hi. rewrite nsum_swap.
    rewrite (nsum_ext n _ (fun j => (INR n * a i * b j) * delta j i)).
    + rewrite (nsum_delta n (fun j => INR n * a i * b j) i Hi). ring.
    + intros j Hj. rewrite nsum_scal, cos_roots by lia. unfold delta.
      destruct (Z.eq_dec _ 0) as [E | E]; destruct (Nat.eqb_spec j i) as [F | F]; try lia; ring.
  - intros k _. rewrite !nsum_mult, <- nsum_plus. apply nsum_ext. intros i _. rewrite <- nsum_plus. apply nsum_ext. intros j _.
    rewrite minus_IZR, <- !INR_IZR_INZ.
    replace (2 * PI * INR k * (INR i - INR j) / INR n) with (ang k i - ang k j) by (field; lra).
    rewrite cos_minus. ring.
Qed.
(** conjugate symmetry *)
Lemma mirror k : (k <= n)%nat -> Ca (n - k) * Cb (n - k) + Sa (n - k) * Sb (n - k) = Ca k * Cb k + Sa k * Sb k.
Proof.
  intros Hk. assert (HN : 0 < INR n) by now apply lt_0_INR.
  assert (HA : forall j, cos (ang (n - k) j) = cos (ang k j) /\ sin (ang (n - k) j) = - sin (ang k j)).
  { intros j. rewrite minus_INR by exact Hk.
    replace (2 * PI * (INR n - INR k) * INR j / INR n) with (- ang k j + 2 * INR j * PI) by (field; lra).
    rewrite cos_period, sin_period, cos_neg, sin_neg. auto. }
  rewrite (nsum_ext n (fun j => a j * cos (ang (n - k) j)) (fun j => a j * cos (ang k j))) by (intros j _; now rewrite (proj1 (HA j))).
  rewrite (nsum_ext n (fun j => b j * cos (ang (n - k) j)) (fun j => b j * cos (ang k j))) by (intros j _; now rewrite (proj1 (HA j))).
  rewrite (nsum_ext n (fun j => a j * sin (ang (n - k) j)) (fun j => -1 * (a j * sin (ang k j)))) by (intros j _; rewrite (proj2 (HA j)); ring).
  rewrite (nsum_ext n (fun j => b j * sin (ang (n - k) j)) (fun j => -1 * (b j * sin (ang k j)))) by (intros j _; rewrite (proj2 (HA j)); ring).
  rewrite !nsum_scal. ring.
Qed.
End Parseval.

Lemma nsum_app n m f : nsum (n + m) f = nsum n f + nsum m (fun i => f (n + i)%nat).
Proof. induction m as [|m IH]; [rewrite Nat.add_0_r; cbn; ring |]. rewrite Nat.add_succ_r. cbn [nsum]. rewrite IH. ring. Qed.
Lemma nsum_rev n f : nsum n f = nsum n (fun i => f (n - 1 - i)%nat).
Proof.
  induction n as [|n IH]; [reflexivity |]. change (nsum (S n) (fun i => f (S n - 1 - i)%nat)) with (nsum (1 + n) (fun i => f (S n - 1 - i)%nat)).
  rewrite (nsum_app 1 n (fun i => f (S n - 1 - i)%nat)). cbn [nsum]. rewrite IH. replace (S n - 1 - 0)%nat with n by lia.
  rewrite (nsum_ext n (fun i => f (S n - 1 - (1 + i))%nat) (fun i => f (n - 1 - i)%nat)) by (intros; f_equal; lia). ring.
Qed.
(** folding a symmetric sum *)
Lemma fold_sum h f : (1 <= h)%nat -> (forall k, (k <= 2 * h)%nat -> f (2 * h - k)%nat = f k) ->
  nsum (2 * h) f = nsum (h + 1) (fun k => sides (2 * h) k * f k).
Proof.
  intros Hh Hf. replace (2 * h)%nat with ((h + 1) + (h - 1))%nat at 1 by lia. rewrite nsum_app.
  replace (nsum (h - 1) (fun i => f (h + 1 + i)%nat)) with (nsum (h - 1) (fun i => f (1 + i)%nat)).
  2: { rewrite nsum_rev. apply nsum_ext. intros i Hi. rewrite <- Hf by lia. f_equal. lia. }
  assert (Hd : ((2 * h) / 2 = h)%nat) by (rewrite Nat.mul_comm; apply Nat.div_mul; lia).
  assert (A : forall g, nsum (h + 1) g = g 0%nat + nsum (h - 1) (fun i => g (1 + i)%nat) + g h).
  { intros g. replace (h + 1)%nat with (1 + (h - 1) + 1)%nat by lia. rewrite nsum_app, nsum_app. cbn [nsum].
    replace (1 + (h - 1) + 0)%nat with h by lia. ring. }
  rewrite !A. unfold sides. rewrite Hd, !Nat.eqb_refl. cbn [Nat.eqb orb].
  rewrite orb_true_r.
  rewrite (nsum_ext (h - 1) (fun i => (if (Nat.eqb (1 + i) 0 || Nat.eqb (1 + i) h)%bool then 1 else 2) * f (1 + i)%nat) (fun i => 2 * f (1 + i)%nat)).
  - rewrite nsum_scal. ring.
  - intros i Hi. destruct (Nat.eqb_spec (1 + i) h); [lia |]. reflexivity.
Qed.

(** ** The program's transform *)
Lemma nth_rmulv a b k : length a = length b -> nth k (rmulv a b) 0 = nth k a 0 * nth k b 0.
Proof.
  revert b k; induction a as [|x a IH]; intros [|y b] [|k] H; try discriminate; cbn; try ring. apply IH. now inversion H.
Qed.
Lemma len_rmulv a b : length a = length b -> length (rmulv a b) = length a.
Proof. intros H. unfold rmulv. rewrite map_length, combine_length. lia. Qed.
Lemma nth_demean e k : (k < length e)%nat -> nth k (demean e) 0 = nth k e 0 - average e.
Proof.
  intros H. unfold demean. rewrite (nth_indep _ 0 ((fun x => x - mean e) 0)) by now rewrite map_length.
  now rewrite (map_nth (fun x => x - mean e)).
Qed.
Lemma len_demean e : length (demean e) = length e.
Proof. apply map_length. Qed.
Lemma nth_taper e w k : length w = length e -> (k < length e)%nat -> nth k (rmulv (demean e) w) 0 = tapered e w k.
Proof. intros Hw Hk. rewrite nth_rmulv by now rewrite len_demean. now rewrite nth_demean. Qed.

Lemma enumerate_seq {A B} (d : A) (f : nat * A -> B) l : map f (enumerate l) = map (fun i => f (i, nth i l d)) (seq 0 (length l)).
Proof.
  unfold enumerate.
  assert (G : forall l s, map f (combine (seq s (length l)) l) = map (fun i => f (i, nth (i - s) l d)) (seq s (length l))).
  { clear l. induction l as [|a l IH]; intros s; [reflexivity |]. cbn [length seq combine map].
    rewrite Nat.sub_diag. cbn [nth]. f_equal. rewrite IH. apply map_ext_in. intros i Hi. apply in_seq in Hi.
    replace (i - s)%nat with (S (i - S s)) by lia. reflexivity. }
  rewrite G. apply map_ext. intros i. now rewrite Nat.sub_0_r.
Qed.
Lemma csum_parts l : csum l = (rsum (map fst l), rsum (map snd l)).
Proof. induction l as [|z l IH]; [reflexivity |]. cbn [csum fold_right map rsum] in *. fold (csum l). rewrite IH. reflexivity. Qed.

Lemma len_rfft e : length (rfft e) = (length e / 2 + 1)%nat.
Proof. unfold rfft. rewrite map_length. apply seq_length. Qed.
Lemma nth_rfft x k : (k <= length x / 2)%nat ->
  nth k (rfft x) (RtoC 0) =
  (nsum (length x) (fun j => nth j x 0 * cos (2 * PI * INR k * INR j / INR (length x))),
   - nsum (length x) (fun j => nth j x 0 * sin (2 * PI * INR k * INR j / INR (length x)))).
Proof.
  intros Hk. unfold rfft.
  set (F := fun k => csum (map (fun p => Cmult (RtoC (snd p)) (cis (- (2 * PI * INR k * INR (fst p) / INR (length x))))) (enumerate x))).
  rewrite (nth_indep _ (RtoC 0) (F 0%nat)) by (rewrite map_length, seq_length; lia).
  rewrite map_nth, seq_nth by lia. rewrite Nat.add_0_l. unfold F.
  rewrite (enumerate_seq 0), csum_parts, !map_map, !rsum_nsum. f_equal.
  - apply nsum_ext. intros j _. cbn [fst snd]. unfold cis, Cmult, RtoC. cbn [fst snd]. rewrite cos_neg. ring.
  - rewrite (nsum_ext _ _ (fun j => -1 * (nth j x 0 * sin (2 * PI * INR k * INR j / INR (length x))))).
    + rewrite nsum_scal. ring.
    + intros j _. cbn [fst snd]. unfold cis, Cmult, RtoC. cbn [fst snd]. rewrite sin_neg. ring.
Qed.
Lemma rfft_taper e w k : length w = length e -> (k <= length e / 2)%nat ->
  nth k (rfft (rmulv (demean e) w)) (RtoC 0) = (dft_cos e w k, - dft_sin e w k).
Proof.
  intros Hw Hk. assert (Hl : length (rmulv (demean e) w) = length e) by (rewrite len_rmulv, len_demean; [reflexivity | now rewrite len_demean]).
  rewrite nth_rfft by now rewrite Hl. rewrite Hl. unfold dft_cos, dft_sin. rewrite !sum_over_nsum. f_equal; [| f_equal].
  all: apply nsum_ext; intros j Hj; now rewrite nth_taper.
Qed.

Lemma nth_double cs k : (k < length cs)%nat ->
  nth k (double_interior cs) 0 = (if (Nat.eqb k 0 || Nat.eqb k (length cs - 1))%bool then 1 else 2) * nth k cs 0.
Proof.
  intros Hk. unfold double_interior.
  rewrite (enumerate_seq 0). set (F := fun i => _).
  rewrite (nth_indep _ 0 (F 0%nat)) by (rewrite map_length, seq_length; lia).
  rewrite map_nth, seq_nth by lia. rewrite Nat.add_0_l. unfold F. cbn [fst snd].
  destruct (Nat.eqb_spec k 0) as [-> | H0]; cbn [orb].
  - replace (0 <? 0)%nat with false by reflexivity. cbn [andb]. ring.
  - destruct (Nat.ltb_spec 0 k) as [_ | ?]; [| lia]. cbn [andb].
    destruct (Nat.eqb_spec k (length cs - 1)) as [E | E].
    + destruct (Nat.ltb_spec k (length cs - 1)); [lia | ring].
    + destruct (Nat.ltb_spec k (length cs - 1)); [ring | lia].
Qed.
Lemma len_double cs : length (double_interior cs) = length cs.
Proof. unfold double_interior, enumerate. rewrite map_length, combine_length, seq_length. lia. Qed.

Lemma nth_map0 {A} (f : A -> R) l k d : (k < length l)%nat -> nth k (map f l) 0 = f (nth k l d).
Proof. intros H. rewrite (nth_indep _ 0 (f d)) by now rewrite map_length. apply map_nth. Qed.
Lemma Cmod_sq z : Cmod z * Cmod z = fst z ^ 2 + snd z ^ 2.
Proof. unfold Cmod. rewrite sqrt_sqrt; [ring | nra]. Qed.
Lemma sumsq_energy w : sumsq w = window_energy w.
Proof. unfold sumsq, window_energy. f_equal. apply map_ext. intros; ring. Qed.

Lemma psd_len e w fs : length w = length e -> length (psd e w fs) = (length e / 2 + 1)%nat.
Proof.
  intros Hw. unfold psd. rewrite map_length, len_double, map_length, len_rfft, len_rmulv, len_demean; [reflexivity |].
  now rewrite len_demean.
Qed.
Lemma psd_cross_len u v w fs : length w = length u -> length v = length u -> length (psd_cross u v w fs) = (length u / 2 + 1)%nat.
Proof.
  intros Hw Hv. unfold psd_cross. rewrite map_length, len_double, map_length, combine_length, !len_rfft, !len_rmulv, !len_demean by (rewrite ?len_demean; lia).
  rewrite Hv. lia.
Qed.
Lemma psd_val e w fs k : length w = length e -> (k <= length e / 2)%nat -> 0 < fs -> 0 < window_energy w ->
  nth k (psd e w fs) 0 = sides (length e) k * (dft_cos e w k ^ 2 + dft_sin e w k ^ 2) / (fs * window_energy w).
Proof.
  intros Hw Hk Hfs Hwe. pose proof (psd_len e w fs Hw) as Hl. unfold psd in *. rewrite map_length in Hl.
  rewrite (nth_map0 _ _ k 0) by lia. rewrite len_double in Hl. rewrite nth_double by lia. rewrite Hl.
  rewrite map_length in Hl. rewrite (nth_map0 _ _ k (RtoC 0)) by lia.
  rewrite rfft_taper by assumption. rewrite Cmod_sq. cbn [fst snd]. rewrite sumsq_energy.
  unfold sides. replace (length e / 2 + 1 - 1)%nat with (length e / 2)%nat by lia. field. lra.
Qed.
Lemma psd_cross_val u v w fs k : length w = length u -> length v = length u -> (k <= length u / 2)%nat -> 0 < fs -> 0 < window_energy w ->
  nth k (psd_cross u v w fs) 0 = sides (length u) k * (dft_cos u w k * dft_cos v w k + dft_sin u w k * dft_sin v w k) / (fs * window_energy w).
Proof.
  intros Hw Hv Hk Hfs Hwe. pose proof (psd_cross_len u v w fs Hw Hv) as Hl. unfold psd_cross in *. rewrite map_length in Hl.
  rewrite (nth_map0 _ _ k 0) by lia. rewrite len_double in Hl. rewrite nth_double by lia. rewrite Hl.
  rewrite map_length in Hl. rewrite (nth_map0 _ _ k (RtoC 0, RtoC 0)) by lia.
  rewrite combine_nth by (rewrite !len_rfft, !len_rmulv, !len_demean by (rewrite ?len_demean; lia); rewrite Hv; reflexivity). cbn [fst snd].
  rewrite !rfft_taper by (try assumption; rewrite ?Hv; assumption). rewrite sumsq_energy.
  unfold sides, Cconj, Cmult. cbn [fst snd]. replace (length u / 2 + 1 - 1)%nat with (length u / 2)%nat by lia. field. lra.
Qed.

Lemma sides_pos n k : 0 < sides n k.
Proof. unfold sides. destruct (_ || _)%bool; lra. Qed.

Lemma psd_nonneg e w fs : length w = length e -> 0 < fs -> 0 < window_energy w ->
  forall k, 0 <= nth k (psd e w fs) 0.
Proof.
  intros Hw Hfs Hwe k. destruct (Nat.le_gt_cases k (length e / 2)) as [Hk | Hk].
  - rewrite psd_val by assumption. pose proof (sides_pos (length e) k).
    apply Rmult_le_pos; [nra |]. left. apply Rinv_0_lt_compat. nra.
  - rewrite nth_overflow; [lra |]. rewrite psd_len by exact Hw. lia.
Qed.

(** total power *)
Lemma rsum_nth l : rsum l = nsum (length l) (fun i => nth i l 0).
Proof.
  rewrite <- rsum_nsum. f_equal. induction l as [|a l IH]; [reflexivity |]. cbn [length seq map nth]. f_equal.
  rewrite <- seq_shift, map_map. cbn. exact IH.
Qed.
Lemma cross_total u v w fs : length w = length u -> length v = length u -> Nat.Even (length u) -> (0 < length u)%nat -> 0 < fs -> 0 < window_energy w ->
  rsum (psd_cross u v w fs) * (fs / INR (length u)) =
  sum_over (length u) (fun j => tapered u w j * tapered v w j) / window_energy w.
Proof.
  intros Hw Hv [h Hh] Hpos Hfs Hwe. set (n := length u) in *.
  assert (HN : 0 < INR n) by now apply lt_0_INR.
  rewrite rsum_nth, psd_cross_len by assumption. fold n.
  assert (Hd : (n / 2 = h)%nat) by (rewrite Hh, Nat.mul_comm; apply Nat.div_mul; lia).
  rewrite (nsum_ext _ _ (fun k => (sides (2 * h) k * (dft_cos u w k * dft_cos v w k + dft_sin u w k * dft_sin v w k)) * / (fs * window_energy w))).
  2: { intros k Hk. rewrite psd_cross_val by (try assumption; fold n; lia). fold n. rewrite <- Hh. reflexivity. }
  rewrite nsum_scal_r, Hd.
  rewrite <- (fold_sum h (fun k => dft_cos u w k * dft_cos v w k + dft_sin u w k * dft_sin v w k)) by
    (try lia; intros k Hk; unfold dft_cos, dft_sin; rewrite !sum_over_nsum, Hv; fold n; rewrite <- Hh in *;
     apply (mirror n (tapered u w) (tapered v w)); lia).
  rewrite <- Hh. unfold dft_cos, dft_sin. rewrite Hv. fold n.
  rewrite (nsum_ext n _ (fun k => nsum n (fun j => tapered u w j * cos (2 * PI * INR k * INR j / INR n)) * nsum n (fun j => tapered v w j * cos (2 * PI * INR k * INR j / INR n))
    + nsum n (fun j => tapered u w j * sin (2 * PI * INR k * INR j / INR n)) * nsum n (fun j => tapered v w j * sin (2 * PI * INR k * INR j / INR n))))
    by (intros; rewrite !sum_over_nsum; reflexivity).
  rewrite (parseval n (tapered u w) (tapered v w) Hpos), sum_over_nsum. field. lra.
Qed.
Lemma psd_is_cross e w fs : psd e w fs = psd_cross e e w fs.
Proof.
  unfold psd, psd_cross. f_equal. f_equal. set (l := rfft _). clearbody l.
  induction l as [|z l IH]; [reflexivity |]. cbn [map combine]. f_equal; [| exact IH].
  rewrite Cmod_sq. unfold Cconj, Cmult. cbn [fst snd]. ring.
Qed.
Lemma psd_total e w fs : length w = length e -> Nat.Even (length e) -> (0 < length e)%nat -> 0 < fs -> 0 < window_energy w ->
  rsum (psd e w fs) * (fs / INR (length e)) = sum_over (length e) (fun j => tapered e w j ^ 2) / window_energy w.
Proof.
  intros. rewrite psd_is_cross, cross_total by auto. f_equal. rewrite !sum_over_nsum. apply nsum_ext. intros; ring.
Qed.

(** scaling and shifting the residual *)
Lemma rsum_scale c l : rsum (map (Rmult c) l) = c * rsum l.
Proof. induction l as [|a l IH]; cbn [map rsum fold_right]; [ring |]. fold (rsum (map (Rmult c) l)) (rsum l). rewrite IH. ring. Qed.
Lemma rsum_shift d l : rsum (map (fun x => x + d) l) = rsum l + INR (length l) * d.
Proof. induction l as [|a l IH]; [cbn; ring |]. cbn [map length]. change (rsum (a :: l)) with (a + rsum l).
  change (rsum (a + d :: map (fun x => x + d) l)) with (a + d + rsum (map (fun x => x + d) l)). rewrite IH, S_INR. ring. Qed.
Lemma demean_affine c d e : e <> [] -> demean (map (fun x => c * x + d) e) = map (Rmult c) (demean e).
Proof.
  intros He. unfold demean, mean. rewrite !map_map, map_length.
  assert (INR (length e) <> 0) by (apply not_0_INR; destruct e; [now elim He | discriminate]).
  replace (rsum (map (fun x => c * x + d) e)) with (c * rsum e + INR (length e) * d).
  - apply map_ext. intros x. field. assumption.
  - rewrite <- (map_map (Rmult c) (fun x => x + d)), rsum_shift, map_length, rsum_scale. reflexivity.
Qed.
Lemma rmulv_scale c a b : rmulv (map (Rmult c) a) b = map (Rmult c) (rmulv a b).
Proof. revert b; induction a as [|x a IH]; intros [|y b]; cbn; try reflexivity. unfold rmulv in IH. rewrite IH. f_equal. ring. Qed.
Lemma rfft_scale c x : rfft (map (Rmult c) x) = map (Cmult (RtoC c)) (rfft x).
Proof.
  unfold rfft. rewrite map_length, map_map. apply map_ext. intros k.
  unfold enumerate. rewrite map_length. generalize (INR (length x)). intros N.
  generalize (seq 0 (length x)). intros s. revert x. induction s as [|i s IH]; intros [|a x].
  all: try (cbn [combine map csum fold_right]; apply injective_projections; cbn; ring).
  cbn [combine map csum fold_right fst snd]. unfold csum in IH. rewrite IH.
  apply injective_projections; cbn; ring.
Qed.
Lemma double_scale c cs : double_interior (map (Rmult c) cs) = map (Rmult c) (double_interior cs).
Proof.
  unfold double_interior. rewrite !(enumerate_seq 0), map_length, map_map. apply map_ext_in. intros i Hi. apply in_seq in Hi. cbn [fst snd].
  rewrite (nth_map0 (Rmult c) cs i 0) by lia. destruct (_ && _)%bool; ring.
Qed.
Lemma cross_affine c d c' d' u v w fs : u <> [] -> v <> [] ->
  psd_cross (map (fun x => c * x + d) u) (map (fun x => c' * x + d') v) w fs = map (Rmult (c * c')) (psd_cross u v w fs).
Proof.
  intros Hu Hv. unfold psd_cross. rewrite !demean_affine, !rmulv_scale, !rfft_scale by assumption.
  rewrite map_map. set (A := rfft _). set (B := rfft _). clearbody A B.
  replace (map (fun p => fst (Cmult (Cconj (fst p)) (snd p))) (combine (map (Cmult (RtoC c)) A) (map (Cmult (RtoC c')) B)))
    with (map (Rmult (c * c')) (map (fun p => fst (Cmult (Cconj (fst p)) (snd p))) (combine A B))).
  - rewrite double_scale, map_map. apply map_ext. intros. ring.
  - revert B. induction A as [|a A IH]; intros [|b B]; cbn [map combine]; try reflexivity. rewrite IH. f_equal. cbn. ring.
Qed.
Lemma psd_affine c d e w fs : e <> [] -> psd (map (fun x => c * x + d) e) w fs = map (Rmult (c ^ 2)) (psd e w fs).
Proof. intros. rewrite !psd_is_cross, cross_affine by assumption. f_equal. apply f_equal. ring. Qed.

(** cross spectrum bounded by the auto-spectra *)
Lemma cross_bound u v w fs k : length w = length u -> length v = length u -> 0 < fs -> 0 < window_energy w ->
  nth k (psd_cross u v w fs) 0 ^ 2 <= nth k (psd u w fs) 0 * nth k (psd v w fs) 0.
Proof.
  intros Hw Hv Hfs Hwe. destruct (Nat.le_gt_cases k (length u / 2)) as [Hk | Hk].
  - rewrite psd_cross_val, !psd_val by (try assumption; rewrite ?Hv; assumption). rewrite Hv.
    set (s := sides (length u) k). set (q := fs * window_energy w).
    set (a := dft_cos u w k). set (b := dft_cos v w k). set (c := dft_sin u w k). set (d := dft_sin v w k).
    assert (0 < q) by (unfold q; nra).
    replace ((s * (a * b + c * d) / q) ^ 2) with ((s / q) ^ 2 * (a * b + c * d) ^ 2) by (field; lra).
    replace (s * (a ^ 2 + c ^ 2) / q * (s * (b ^ 2 + d ^ 2) / q)) with ((s / q) ^ 2 * ((a ^ 2 + c ^ 2) * (b ^ 2 + d ^ 2))) by (field; lra).
    apply Rmult_le_compat_l; [apply pow2_ge_0 |]. assert (0 <= (a * d - b * c) ^ 2) by apply pow2_ge_0. nra.
  - rewrite !nth_overflow; [lra | rewrite psd_len by lia; rewrite ?Hv; lia .. | rewrite psd_cross_len by lia; lia].
Qed.
