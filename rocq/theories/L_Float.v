(** Range of the binary64 remainder. *)
From Coq Require Import Reals ZArith Lia Lra Psatz.
From Flocq Require Import Core.
From Verif Require Import M_Float S_Float.
Open Scope R_scope.

#[global] Instance prec64 : Prec_gt_0 53 := eq_refl.
#[global] Instance valid64 : Valid_exp fexp64 := FLT_exp_valid (-1074) 53.

Lemma fmod_bound x b : 0 < b -> Rabs (fmod x b) < b /\ Rabs (fmod x b) <= Rabs x /\ 0 <= fmod x b * x.
Proof.
  intros Hb. unfold fmod.
  assert (Hx : x = x / b * b) by (field; lra). set (q := x / b) in *.
  replace (x - b * IZR (Ztrunc q)) with ((q - IZR (Ztrunc q)) * b) by (rewrite Hx at 1; ring).
  assert (H : Rabs (q - IZR (Ztrunc q)) < 1 /\ Rabs (q - IZR (Ztrunc q)) <= Rabs q /\ 0 <= (q - IZR (Ztrunc q)) * q).
  { destruct (Rle_or_lt 0 q) as [Hq | Hq].
    - rewrite Ztrunc_floor by exact Hq. pose proof (Zfloor_lb q). pose proof (Zfloor_ub q). pose proof (Zfloor_lub 0 q Hq) as H1. apply IZR_le in H1.
      rewrite !Rabs_pos_eq by lra. repeat split; try lra. nra.
    - rewrite Ztrunc_ceil by lra. pose proof (Zceil_ub q). assert (IZR (Zceil q) < q + 1).
      { pose proof (Zceil_lb q). lra. }
      assert (H1 : (Zceil q <= 0)%Z) by (apply Zceil_glb; lra). apply IZR_le in H1.
      rewrite !Rabs_left1 by lra. repeat split; try lra. nra. }
  destruct H as [H1 [H2 H3]]. rewrite !Rabs_mult, (Rabs_pos_eq b) by lra.
  assert (Rabs x = Rabs q * b) by (rewrite Hx, Rabs_mult, (Rabs_pos_eq b) by lra; reflexivity).
  split; [nra |]. split; [nra |]. rewrite Hx. assert (0 <= (q - IZR (Ztrunc q)) * q * (b * b)) by (apply Rmult_le_pos; nra). lra.
Qed.

(** fmod is exact: the result is representable *)
Lemma mul_pow (m : Z) (e e0 : Z) : (e0 <= e)%Z -> F2R (Float radix2 m e) = IZR (m * radix2 ^ (e - e0)) * bpow radix2 e0.
Proof.
  intros H. unfold F2R. cbn [Fnum Fexp]. rewrite mult_IZR, IZR_Zpower by lia. rewrite Rmult_assoc, <- bpow_plus. do 2 f_equal. lia.
Qed.
Lemma fmod_is64 x b : 0 < b -> is64 x -> is64 b -> is64 (fmod x b).
Proof.
  intros Hb Hx Hb'. destruct (fmod_bound x b Hb) as [B1 [B2 _]].
  apply FLT_format_generic in Hx; [| reflexivity]. apply FLT_format_generic in Hb'; [| reflexivity].
  destruct Hx as [[mx ex] Ex Nx Lx]. destruct Hb' as [[mb eb] Eb Nb Lb]. cbn [Fnum Fexp] in *.
  apply generic_format_FLT. destruct (Z.le_gt_cases ex eb) as [H | H].
  - rewrite (mul_pow mb eb ex H) in Eb. unfold F2R in Ex. cbn [Fnum Fexp] in Ex.
    set (k := (mx - mb * radix2 ^ (eb - ex) * Ztrunc (x / b))%Z).
    assert (Ek : fmod x b = F2R (Float radix2 k ex)).
    { unfold fmod, F2R, k. cbn [Fnum Fexp]. generalize (Ztrunc (x / b)). intros q. rewrite minus_IZR, (mult_IZR _ q), Ex, Eb. ring. }
    exists (Float radix2 k ex); [exact Ek | | exact Lx]. cbn [Fnum].
    rewrite Ek, Ex in B2. unfold F2R in B2. cbn [Fnum Fexp] in B2. rewrite !Rabs_mult, (Rabs_pos_eq (bpow _ _)) in B2 by apply bpow_ge_0.
    apply Rmult_le_reg_r in B2; [| apply bpow_gt_0]. rewrite <- !abs_IZR in B2. apply le_IZR in B2. lia.
  - rewrite (mul_pow mx ex eb) in Ex by lia. unfold F2R in Eb. cbn [Fnum Fexp] in Eb.
    set (k := (mx * radix2 ^ (ex - eb) - mb * Ztrunc (x / b))%Z).
    assert (Ek : fmod x b = F2R (Float radix2 k eb)).
    { unfold fmod, F2R, k. cbn [Fnum Fexp]. generalize (Ztrunc (x / b)). intros q. rewrite minus_IZR, (mult_IZR _ q), Ex, Eb. ring. }
    exists (Float radix2 k eb); [exact Ek | | exact Lb]. cbn [Fnum].
    rewrite Ek, Eb in B1. unfold F2R in B1. cbn [Fnum Fexp] in B1. rewrite !Rabs_mult, (Rabs_pos_eq (bpow _ _)) in B1 by apply bpow_ge_0.
    apply Rmult_lt_reg_r in B1; [| apply bpow_gt_0]. rewrite <- abs_IZR in B1. apply lt_IZR in B1. lia.
Qed.

Lemma is64_int n e : (Z.abs n < 2 ^ 53)%Z -> (-1074 <= e)%Z -> is64 (IZR n * bpow radix2 e).
Proof. intros Hn He. apply generic_format_FLT. exists (Float radix2 n e); [reflexivity | exact Hn | exact He]. Qed.
Lemma is64_IZR n : (Z.abs n < 2 ^ 53)%Z -> is64 (IZR n).
Proof. intros Hn. replace (IZR n) with (IZR n * bpow radix2 0) by (cbn; ring). apply is64_int; [exact Hn | lia]. Qed.
Lemma fl_is64 x : is64 (fl x).
Proof. apply generic_format_round; typeclasses eauto. Qed.
Lemma fl_id x : is64 x -> fl x = x.
Proof. apply round_generic. typeclasses eauto. Qed.
Lemma fl_le x y : x <= y -> fl x <= fl y.
Proof. apply round_le; typeclasses eauto. Qed.
Lemma fl_opp_is64 x : is64 x -> is64 (- x).
Proof. apply generic_format_opp. Qed.

Lemma remainder_range x b : 0 < b -> is64 b -> 0 <= remainder64 x b <= b.
Proof.
  intros Hb Hf. destruct (fmod_bound x b Hb) as [B1 _]. unfold remainder64. destruct (Rlt_dec (fmod x b) 0) as [H | H].
  - rewrite Rabs_left in B1 by exact H. split.
    + rewrite <- (fl_id 0) by apply generic_format_0. apply fl_le. lra.
    + apply Rle_trans with (fl b); [apply fl_le; lra | rewrite (fl_id b Hf); lra].
  - rewrite Rabs_pos_eq in B1 by lra. lra.
Qed.
Lemma remainder_is64 x b : 0 < b -> is64 x -> is64 b -> is64 (remainder64 x b).
Proof. intros. unfold remainder64. destruct (Rlt_dec _ _); [apply fl_is64 | now apply fmod_is64]. Qed.

Lemma reduced_unique x b y y' : 0 < b -> reduced x b y -> reduced x b y' -> y = y'.
Proof.
  intros Hb [[A1 A2] [n En]] [[A1' A2'] [n' En']]. assert (y - y' = IZR (n' - n) * b) by (rewrite minus_IZR; lra).
  assert (n' - n = 0)%Z.
  { assert (H1 : IZR (n' - n) < 1) by nra. assert (H2 : -1 < IZR (n' - n)) by nra. apply lt_IZR in H1. apply lt_IZR in H2. lia. }
  rewrite H0 in H. lra.
Qed.
Lemma fmod_reduced x b : 0 < b -> (fmod x b < 0 -> reduced x b (fmod x b + b)) /\ (0 <= fmod x b -> reduced x b (fmod x b)).
Proof.
  intros Hb. destruct (fmod_bound x b Hb) as [B1 _]. split; intros H.
  - rewrite Rabs_left in B1 by exact H. split; [lra |]. exists (Ztrunc (x / b) - 1)%Z. rewrite minus_IZR. unfold fmod. ring.
  - rewrite Rabs_pos_eq in B1 by exact H. split; [lra |]. exists (Ztrunc (x / b)). unfold fmod. ring.
Qed.

(** b between two powers of two, with an even 53-bit significand *)
Section Near.
Variables (b : R) (e N : Z).
Hypothesis He : (-1000 <= e)%Z.
Hypothesis HN : Z.even N = true.
Hypothesis Hb : b = IZR N * bpow radix2 (e - 53).
Hypothesis Hlo : bpow radix2 (e - 1) + bpow radix2 (e - 53) <= b.
Hypothesis Hhi : b <= bpow radix2 e.

Lemma cexp_near v : bpow radix2 (e - 1) <= v < b -> cexp radix2 fexp64 v = (e - 53)%Z.
Proof.
  intros Hv. unfold cexp. rewrite (mag_unique_pos radix2 v e) by lra. unfold fexp64, FLT_exp. lia.
Qed.
Lemma fl_near v : bpow radix2 (e - 1) <= v < b -> fl v = IZR (ZnearestE (v * bpow radix2 (- (e - 53)))) * bpow radix2 (e - 53).
Proof. intros Hv. unfold fl, round, scaled_mantissa, F2R. cbn [Fnum Fexp]. now rewrite (cexp_near v Hv). Qed.
Lemma scaled v : v * bpow radix2 (- (e - 53)) = IZR N + (v - b) * bpow radix2 (- (e - 53)).
Proof.
  assert (H : bpow radix2 (e - 53) * bpow radix2 (- (e - 53)) = 1) by (rewrite <- bpow_plus; replace (e - 53 + - (e - 53))%Z with 0%Z by lia; reflexivity).
  rewrite Hb. replace (IZR N) with (IZR N * 1) at 1 by ring. rewrite <- H. ring.
Qed.
Lemma bpow_inv : bpow radix2 (e - 53) * bpow radix2 (- (e - 53)) = 1.
Proof. rewrite <- bpow_plus. replace (e - 53 + - (e - 53))%Z with 0%Z by lia. reflexivity. Qed.
Lemma half_ulp : bpow radix2 (e - 54) = bpow radix2 (e - 53) / 2.
Proof. replace (e - 54)%Z with (e - 53 + -1)%Z by lia. rewrite bpow_plus. cbn. lra. Qed.

Lemma fl_is_b v : b - bpow radix2 (e - 54) <= v < b -> fl v = b.
Proof.
  intros Hv. pose proof (bpow_gt_0 radix2 (e - 53)) as Hp. rewrite half_ulp in Hv.
  rewrite fl_near by lra. transitivity (IZR N * bpow radix2 (e - 53)); [| now symmetry]. do 2 f_equal. rewrite scaled.
  set (k := bpow radix2 (- (e - 53))). assert (Hk : 0 < k) by apply bpow_gt_0. pose proof bpow_inv as Hi. fold k in Hi.
  set (d := (v - b) * k). assert (Hd : - / 2 <= d < 0) by (unfold d; split; nra).
  unfold Znearest. assert (F : Zfloor (IZR N + d) = (N - 1)%Z) by (apply Zfloor_imp; rewrite plus_IZR, minus_IZR; lra).
  assert (G : Zceil (IZR N + d) = N) by (apply Zceil_imp; rewrite minus_IZR; lra).
  rewrite F, G, minus_IZR. destruct (Rcompare_spec (IZR N + d - (IZR N - 1)) (/ 2)); [lra | | reflexivity].
  replace (Z.even (N - 1)) with false; [reflexivity |]. rewrite Z.even_sub, HN. reflexivity.
Qed.
Lemma fl_below_b v : 0 <= v -> v < b - bpow radix2 (e - 54) -> fl v <= b - bpow radix2 (e - 53).
Proof.
  intros Hv0 Hv. pose proof (bpow_gt_0 radix2 (e - 53)) as Hp. rewrite half_ulp in Hv.
  destruct (Rle_or_lt (bpow radix2 (e - 1)) v) as [H | H].
  - rewrite fl_near by lra. rewrite scaled.
    set (k := bpow radix2 (- (e - 53))). assert (Hk : 0 < k) by apply bpow_gt_0. pose proof bpow_inv as Hi. fold k in Hi.
    set (d := (v - b) * k). assert (Hd : d < - / 2) by (unfold d; nra).
    assert (Hz : (ZnearestE (IZR N + d) <= N - 1)%Z).
    { pose proof (Znearest_half (fun x => negb (Z.even x)) (IZR N + d)) as Hh. apply Rabs_le_inv in Hh.
      assert (IZR (ZnearestE (IZR N + d)) < IZR N) by lra. apply lt_IZR in H0. lia. }
    apply IZR_le in Hz. rewrite minus_IZR in Hz. rewrite Hb. nra.
  - apply Rle_trans with (bpow radix2 (e - 1)); [| lra].
    rewrite <- (fl_id (bpow radix2 (e - 1))); [apply fl_le; lra |]. apply generic_format_bpow. unfold fexp64, FLT_exp. lia.
Qed.
Lemma near_pos : 0 < b.
Proof. pose proof (bpow_gt_0 radix2 (e - 53)). pose proof (bpow_gt_0 radix2 (e - 1)). lra. Qed.

Lemma remainder_full x : remainder64 x b = b <-> x < 0 /\ exists n : Z, 0 < IZR n * b - x <= bpow radix2 (e - 54).
Proof.
  pose proof near_pos as Hpos. destruct (fmod_bound x b Hpos) as [B1 [_ B3]]. unfold remainder64. split.
  - intros E. destruct (Rlt_dec (fmod x b) 0) as [H | H].
    + split.
      { destruct (Rlt_or_le x 0) as [Hx | [Hx | <-]]; [exact Hx | nra |]. exfalso. revert H. unfold fmod, Rdiv. rewrite Rmult_0_l. rewrite (Ztrunc_IZR 0). lra. }
      exists (Ztrunc (x / b)). replace (IZR (Ztrunc (x / b)) * b - x) with (- fmod x b) by (unfold fmod; ring). split; [lra |].
      rewrite Rabs_left in B1 by exact H.
      destruct (Rle_or_lt (- fmod x b) (bpow radix2 (e - 54))) as [H1 | H1]; [exact H1 |].
      pose proof (fl_below_b (fmod x b + b) ltac:(lra) ltac:(lra)). pose proof (bpow_gt_0 radix2 (e - 53)). lra.
    + rewrite Rabs_pos_eq in B1 by lra. lra.
  - intros [Hx [n Hn]]. pose proof half_ulp as Hh. pose proof (bpow_gt_0 radix2 (e - 53)) as Hp. pose proof (bpow_gt_0 radix2 (e - 1)) as Hp1.
    assert (R0 : reduced x b (x - IZR (n - 1) * b)) by (rewrite minus_IZR; split; [lra |]; exists (n - 1)%Z; rewrite minus_IZR; ring).
    destruct (fmod_reduced x b Hpos) as [Rn Rp]. destruct (Rlt_dec (fmod x b) 0) as [H | H].
    + rewrite (reduced_unique _ _ _ _ Hpos (Rn H) R0). rewrite minus_IZR. apply fl_is_b. lra.
    + exfalso. assert (E : fmod x b = x - IZR (n - 1) * b) by (apply (reduced_unique x b); auto; apply Rp; lra).
      rewrite minus_IZR in E. assert (fmod x b <= 0) by nra. lra.
Qed.
Lemma remainder_error x y : reduced x b y -> Rabs (remainder64 x b - y) <= bpow radix2 (e - 54).
Proof.
  intros Hy. pose proof near_pos as Hpos. destruct (fmod_reduced x b Hpos) as [Rn Rp]. unfold remainder64.
  destruct (Rlt_dec (fmod x b) 0) as [H | H].
  - rewrite (reduced_unique _ _ _ _ Hpos Hy (Rn H)). specialize (Rn H). destruct Rn as [Rn _]. set (v := fmod x b + b) in *.
    destruct (Req_dec v 0) as [-> | Hv]; [rewrite (fl_id 0) by apply generic_format_0; rewrite Rminus_0_r, Rabs_R0; apply bpow_ge_0 |].
    pose proof (error_le_half_ulp radix2 fexp64 (fun x => negb (Z.even x)) v) as Hu. fold (fl v) in Hu. 
    apply Rle_trans with (1 := Hu). rewrite ulp_neq_0 by exact Hv.
    rewrite half_ulp. assert (bpow radix2 (cexp radix2 fexp64 v) <= bpow radix2 (e - 53)).
    { apply bpow_le. unfold cexp, fexp64, FLT_exp. assert (mag radix2 v <= e)%Z by (apply mag_le_bpow; [exact Hv |]; rewrite Rabs_pos_eq; lra). lia. }
    lra.
  - rewrite (reduced_unique _ _ _ _ Hpos Hy (Rp ltac:(lra))). rewrite Rminus_diag_eq by reflexivity. rewrite Rabs_R0. apply bpow_ge_0.
Qed.
End Near.

Ltac pow2 := cbn [bpow radix2 radix_val]; cbn; lra.
Lemma full_360 x : remainder64 x 360 = 360 <-> x < 0 /\ exists n : Z, 0 < IZR n * 360 - x <= bpow radix2 (-45).
Proof. apply (remainder_full 360 9 (360 * 2 ^ 44)); [lia | reflexivity | pow2 | pow2 | pow2]. Qed.
Lemma full_180 x : remainder64 x 180 = 180 <-> x < 0 /\ exists n : Z, 0 < IZR n * 180 - x <= bpow radix2 (-46).
Proof. apply (remainder_full 180 8 (180 * 2 ^ 45)); [lia | reflexivity | pow2 | pow2 | pow2]. Qed.
Lemma error_360 x y : reduced x 360 y -> Rabs (remainder64 x 360 - y) <= bpow radix2 (-45).
Proof. apply (remainder_error 360 9); [lia | pow2 | pow2]. Qed.
Lemma error_180 x y : reduced x 180 y -> Rabs (remainder64 x 180 - y) <= bpow radix2 (-46).
Proof. apply (remainder_error 180 8); [lia | pow2 | pow2]. Qed.

Lemma theta_range ep em : 0 <= theta64 ep em <= 180.
Proof. apply remainder_range; [lra |]. now apply is64_IZR. Qed.
Lemma g_vector_range ep em : 0 <= g_vector64 ep em <= 360.
Proof. apply remainder_range; [lra |]. now apply is64_IZR. Qed.
Lemma g_scalar_range at2 X Y : 0 <= g_scalar64 at2 X Y <= 360.
Proof. apply remainder_range; [lra |]. now apply is64_IZR. Qed.
Lemma vector_range at2 Xu Yu Xv Yv : 0 <= fst (angles_vector64 at2 Xu Yu Xv Yv) <= 180 /\ 0 <= snd (angles_vector64 at2 Xu Yu Xv Yv) <= 360.
Proof. split; [apply theta_range | apply g_vector_range]. Qed.

Lemma deg64_bounds : 45 <= deg64 <= 60.
Proof.
  assert (H3 : 3 <= fl PI) by (rewrite <- (fl_id 3) by (now apply is64_IZR); apply fl_le; pose proof PI2_3_2; lra).
  assert (H4 : fl PI <= 4) by (rewrite <- (fl_id 4) by (now apply is64_IZR); apply fl_le; pose proof PI_4; lra).
  assert (Hq : 45 <= 180 / fl PI <= 60).
  { split; apply Rmult_le_reg_r with (fl PI); try lra; replace (180 / fl PI * fl PI) with 180 by (field; lra); nra. }
  unfold deg64. split.
  - rewrite <- (fl_id 45) by (now apply is64_IZR). now apply fl_le.
  - rewrite <- (fl_id 60) by (now apply is64_IZR). now apply fl_le.
Qed.

(** nearly in-phase scalar data: cosine coefficient 1, sine coefficient -2^-60 *)
Lemma scalar_360 at2 : arctan2_rough at2 -> is64 1 /\ is64 (- bpow radix2 (-60)) /\ g_scalar64 at2 1 (- bpow radix2 (-60)) = 360.
Proof.
  intros Hat. assert (H1 : is64 1) by now apply is64_IZR. set (d := bpow radix2 (-60)).
  assert (Hd : is64 d) by (apply generic_format_bpow; unfold fexp64, FLT_exp; lia).
  split; [exact H1 |]. split; [now apply fl_opp_is64 |].
  unfold g_scalar64, angle_deg64. rewrite Ropp_involutive.
  assert (Hdp : 0 < d) by apply bpow_gt_0.
  assert (Hd1 : d <= 1) by (change 1 with (bpow radix2 0); apply bpow_le; lia).
  assert (Hd2 : 1 <= 2 ^ 1000 * d).
  { apply Rle_trans with (2 ^ 60 * d); [unfold d; cbn; lra |]. apply Rmult_le_compat_r; [lra |]. apply Rle_pow; [lra | lia]. }
  destruct (Hat d 1 Hd H1 ltac:(lra) Hd2 Hd1) as [Ha Hb].
  replace (2 * (d / 1)) with (2 * d) in Hb by field. set (a := at2 d 1) in *. pose proof deg64_bounds as Hk.
  assert (Hlow : a <= fl (a * deg64)) by (rewrite <- (fl_id a Ha) at 1; apply fl_le; nra).
  assert (Hhigh : fl (a * deg64) <= 128 * d).
  { assert (E : 128 * d = bpow radix2 (-53)) by (unfold d; cbn; lra). rewrite E, <- (fl_id (bpow radix2 (-53))); [apply fl_le; rewrite <- E; nra |].
    apply generic_format_bpow; unfold fexp64, FLT_exp; lia. }
  apply full_360. split; [lra |]. exists 0%Z. replace (IZR 0 * 360 - - fl (a * deg64)) with (fl (a * deg64)) by ring. split; [lra |].
  apply Rle_trans with (1 := Hhigh). unfold d. cbn. lra.
Qed.

(** angle formulas of vector data *)
Lemma theta_180 : let ep := - bpow radix2 (-60) in is64 ep /\ is64 0 /\ theta64 ep 0 = 180.
Proof.
  intros ep. assert (He : is64 ep) by (apply fl_opp_is64, generic_format_bpow; unfold fexp64, FLT_exp; lia).
  split; [exact He |]. split; [apply generic_format_0 |]. unfold theta64. rewrite Rplus_0_r, (fl_id ep He).
  assert (E : ep / 2 = - bpow radix2 (-61)) by (unfold ep; cbn; lra). rewrite E.
  rewrite fl_id by (apply fl_opp_is64, generic_format_bpow; unfold fexp64, FLT_exp; lia).
  apply full_180. pose proof (bpow_gt_0 radix2 (-61)). split; [lra |]. exists 0%Z.
  replace (IZR 0 * 180 - - bpow radix2 (-61)) with (bpow radix2 (-61)) by ring. split; [lra |]. apply bpow_le. lia.
Qed.
Lemma g_vector_360 : let ep := bpow radix2 (-60) in is64 ep /\ is64 (- ep) /\ theta64 ep (- ep) = 0 /\ g_vector64 ep (- ep) = 360.
Proof.
  intros ep. assert (He : is64 ep) by (apply generic_format_bpow; unfold fexp64, FLT_exp; lia).
  split; [exact He |]. split; [now apply fl_opp_is64 |].
  assert (Ht : theta64 ep (- ep) = 0).
  { unfold theta64. rewrite Rplus_opp_r. rewrite (fl_id 0) by apply generic_format_0. unfold Rdiv at 1. rewrite Rmult_0_l, (fl_id 0) by apply generic_format_0.
    unfold remainder64, fmod, Rdiv. rewrite Rmult_0_l, (Ztrunc_IZR 0). destruct (Rlt_dec _ _); lra. }
  split; [exact Ht |]. unfold g_vector64. rewrite Ht, Rplus_0_r. rewrite fl_id by now apply fl_opp_is64.
  pose proof (bpow_gt_0 radix2 (-60)). fold ep in H. apply full_360. split; [lra |]. exists 0%Z.
  replace (IZR 0 * 360 - - ep) with ep by ring. split; [lra |]. apply bpow_le. lia.
Qed.

(** a correctly rounded arctangent has the required property *)
Lemma atan_half q : 0 <= q <= 1 -> q / 2 <= atan q <= q.
Proof.
  intros [[Hq | <-] Hq1]; [| rewrite atan_0; lra].
  destruct (MVT_cor2 atan (fun x => / (1 + x ^ 2)) 0 q Hq) as [c [E Hc]].
  - intros c _. apply derivable_pt_lim_atan.
  - rewrite atan_0 in E. assert (H : / 2 <= / (1 + c ^ 2) <= 1).
    { split; [apply Rinv_le_contravar; nra |]. rewrite <- Rinv_1. apply Rinv_le_contravar; nra. }
    nra.
Qed.
Lemma rough_example : arctan2_rough (fun y x => fl (atan (y / x))).
Proof.
  intros y x Hy Hx Hx0 H1 H2. split; [apply fl_is64 |].
  assert (Hxi : 0 < / x) by now apply Rinv_0_lt_compat.
  assert (Hp : 0 < 2 ^ 1000) by (apply pow_lt; lra).
  assert (Hy0 : 0 < y) by nra.
  set (q := y / x). assert (Hq1 : q <= 1) by (unfold q, Rdiv; apply Rmult_le_reg_r with x; [exact Hx0 |]; rewrite Rmult_assoc, Rinv_l by lra; lra).
  assert (Hq0 : / 2 ^ 1000 <= q).
  { unfold q, Rdiv. apply Rmult_le_reg_l with (2 ^ 1000); [exact Hp |]. rewrite Rinv_r by lra. apply Rmult_le_reg_r with x; [exact Hx0 |].
    rewrite !Rmult_assoc, Rinv_l by lra. lra. }
  assert (Hip : 0 < / 2 ^ 1000) by now apply Rinv_0_lt_compat.
  destruct (atan_half q ltac:(lra)) as [A1 A2]. set (a := atan q) in *. clearbody a q.
  assert (Eb : bpow radix2 (-1001) = / 2 ^ 1000 / 2).
  { replace (-1001)%Z with (-1000 + -1)%Z by lia. rewrite bpow_plus. change (bpow radix2 (-1)) with (/ 2). unfold Rdiv. f_equal.
    change (bpow radix2 (-1000)) with (bpow radix2 (- (1000))). rewrite bpow_opp. f_equal. rewrite (bpow_powerRZ radix2 1000). 
    replace (1000)%Z with (Z.of_nat 1000) by reflexivity. rewrite <- pow_powerRZ. reflexivity. }
  split.
  - apply Rlt_le_trans with (bpow radix2 (-1001)); [apply bpow_gt_0 |]. rewrite <- (fl_id (bpow radix2 (-1001))); [apply fl_le; rewrite Eb; lra |].
    apply generic_format_bpow; unfold fexp64, FLT_exp; lia.
  - assert (Ha : a <> 0) by lra.
    pose proof (error_le_half_ulp radix2 fexp64 (fun x => negb (Z.even x)) a) as Hu. fold (fl a) in Hu. rewrite ulp_neq_0 in Hu by exact Ha.
    assert (Hm : (-1001 <= mag radix2 a - 1)%Z).
    { assert (-1001 < mag radix2 a)%Z; [| lia]. apply mag_gt_bpow. rewrite Rabs_pos_eq by lra. rewrite Eb. lra. }
    assert (Hc : bpow radix2 (cexp radix2 fexp64 a) <= a).
    { apply Rle_trans with (bpow radix2 (mag radix2 a - 1)).
      - apply bpow_le. unfold cexp, fexp64, FLT_exp. lia.
      - pose proof (bpow_mag_le radix2 a Ha) as Hb. rewrite Rabs_pos_eq in Hb by lra. exact Hb. }
    apply Rabs_le_inv in Hu. lra.
Qed.
Lemma scalar_not_below at2 : arctan2_rough at2 -> exists X Y, is64 X /\ is64 Y /\ ~ (0 <= g_scalar64 at2 X Y < 360).
Proof. intros H. destruct (scalar_360 at2 H) as [H1 [H2 H3]]. exists 1, (- bpow radix2 (-60)). split; [exact H1 |]. split; [exact H2 |]. rewrite H3. lra. Qed.
