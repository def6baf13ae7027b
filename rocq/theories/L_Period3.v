(** Band levels of evenly spaced residuals; frequencies for uneven ones. *)
From Coq Require Import Lia Lra Psatz.
From Verif Require Import M_Base M_Lib M_Slvinit M_Period S_Conf S_Period L_Base L_Conf6 L_Period L_Period2.
Open Scope R_scope.

(** ** The window *)
Lemma hann_spec n : hann n = hann_window n.
Proof.
  unfold hann, hann_window. apply map_ext. intros k.
  replace (2 * PI * INR k / INR n) with (2 * (PI * INR k / INR n)) by (unfold Rdiv; ring).
  rewrite cos_2a_sin. field.
Qed.
Lemma len_hann n : length (hann_window n) = n.
Proof. unfold hann_window. now rewrite map_length, seq_length. Qed.
Lemma energy_nonneg w : 0 <= window_energy w.
Proof.
  unfold window_energy. induction w as [|a w IH]; cbn [map rsum fold_right]; [lra |].
  fold (rsum (map (fun x => x ^ 2) w)). pose proof (pow2_ge_0 a). lra.
Qed.
Lemma energy_pos w x : In x w -> x <> 0 -> 0 < window_energy w.
Proof.
  unfold window_energy. induction w as [|a w IH]; intros Hi Hx; [destruct Hi |]; destruct Hi as [-> | Hi]; cbn [map rsum fold_right];
  fold (rsum (map (fun x => x ^ 2) w)).
  - pose proof (energy_nonneg w) as H. unfold window_energy in H. pose proof (pow2_gt_0 x Hx). lra.
  - specialize (IH Hi Hx). pose proof (pow2_ge_0 a). lra.
Qed.
Lemma hann_energy n : (2 <= n)%nat -> 0 < window_energy (hann_window n).
Proof.
  intros Hn. apply (energy_pos _ (sin (PI * INR 1 / INR n) ^ 2)).
  - unfold hann_window. apply in_map_iff. exists 1%nat. split; [reflexivity |]. apply in_seq. lia.
  - apply pow_nonzero. apply (sin_frac_nz n 1); lia.
Qed.

(** ** The grid *)
Lemma grid_nth n dt k : (k <= n / 2)%nat -> nth k (fft_grid n dt) 0 = INR k / (INR n * dt).
Proof.
  intros Hk. unfold fft_grid. rewrite (nth_map0 _ _ k 0%nat) by (rewrite seq_length; lia).
  rewrite seq_nth by lia. reflexivity.
Qed.
Lemma grid_len n dt : length (fft_grid n dt) = (n / 2 + 1)%nat.
Proof. unfold fft_grid. now rewrite map_length, seq_length. Qed.
Lemma grid_sorted n dt : (0 < n)%nat -> 0 < dt -> non_decreasing (fft_grid n dt).
Proof.
  intros Hn Hdt i j. rewrite grid_len. intros Hij. rewrite !grid_nth by lia.
  apply Rmult_le_compat_r; [| apply le_INR; lia]. left. apply Rinv_0_lt_compat.
  apply Rmult_lt_0_compat; [now apply lt_0_INR | exact Hdt].
Qed.
Lemma grid_ne n dt : fft_grid n dt <> [].
Proof. intros H. pose proof (grid_len n dt) as E. rewrite H in E. cbn in E. lia. Qed.

(** ** Even part *)
Lemma trim_spec l : trim_even l = even_part l.
Proof.
  unfold trim_even, even_part. destruct (Nat.odd (length l)) eqn:E.
  - apply Nat.odd_spec in E. destruct E as [m Hm]. rewrite Hm.
    replace ((2 * m + 1) / 2)%nat with m by (apply Nat.div_unique with 1%nat; lia).
    assert (l <> []) by (intros ->; cbn in Hm; lia).
    pose proof (app_removelast_last 0 H) as HA. rewrite HA at 2.
    assert (length (removelast l) = (2 * m)%nat).
    { apply (f_equal (@length R)) in HA. rewrite app_length in HA. cbn in HA. lia. }
    rewrite <- H0. rewrite firstn_app, Nat.sub_diag, firstn_all. cbn [firstn]. now rewrite app_nil_r.
  - assert (Nat.even (length l) = true) by (rewrite <- Nat.negb_odd, E; reflexivity).
    apply Nat.even_spec in H. destruct H as [m Hm]. rewrite Hm.
    replace ((2 * m) / 2)%nat with m by (apply Nat.div_unique with 0%nat; lia).
    rewrite <- Hm. now rewrite firstn_all.
Qed.
Lemma even_len l : length (even_part l) = (2 * (length l / 2))%nat.
Proof. unfold even_part. rewrite firstn_length. pose proof (Nat.mul_div_le (length l) 2). lia. Qed.
Lemma even_nth l i : (i < 2 * (length l / 2))%nat -> nth i (even_part l) 0 = nth i l 0.
Proof.
  intros H. unfold even_part. rewrite <- (firstn_skipn (2 * (length l / 2)) l) at 3.
  rewrite app_nth1; [reflexivity |]. rewrite firstn_length. pose proof (Nat.mul_div_le (length l) 2). lia.
Qed.

(** ** Spectra as lists *)
Lemma cross_list u v w fs : length w = length u -> length v = length u -> 0 < fs -> 0 < window_energy w ->
  psd_cross u v w fs = co_spectra u v w fs.
Proof.
  intros Hw Hv Hfs Hwe. apply nth_ext with (d := 0) (d' := 0).
  - rewrite psd_cross_len by assumption. unfold co_spectra. now rewrite map_length, seq_length.
  - intros k Hk. rewrite psd_cross_len in Hk by assumption. unfold co_spectra.
    rewrite (nth_map0 _ _ k 0%nat) by (rewrite seq_length; lia). rewrite seq_nth by lia.
    rewrite psd_cross_val by (try assumption; lia). reflexivity.
Qed.
Lemma psd_list e w fs : length w = length e -> 0 < fs -> 0 < window_energy w -> psd e w fs = co_spectra e e w fs.
Proof. intros. rewrite psd_is_cross. now apply cross_list. Qed.
Lemma co_len u v w fs : length (co_spectra u v w fs) = (length u / 2 + 1)%nat.
Proof. unfold co_spectra. now rewrite map_length, seq_length. Qed.

(** ** band_psd of an evenly spaced residual *)
Definition lev (P grid : list R) (near : list nat) (l : list (option R)) : Prop :=
  Forall2 (fun b x => band_mean P grid near (fst b) (snd b) x) freq_bands l.

Lemma band_even L t eu ev cfrq : length eu = length t -> (forall v, ev = Some v -> length v = length t) ->
  (2 <= length t)%nat -> nth 0 t 0 < nth 1 t 0 ->
  let u := even_part eu in let w := hann_window (length u) in let dt := 24 * (nth 1 t 0 - nth 0 t 0) in
  let grid := fft_grid (length u) dt in
  exists near p, Forall2 (nearest_bin grid) cfrq near /\ band_psd L t eu ev cfrq true = Ok p /\
    lev (co_spectra u u w (1 / dt)) grid near (b_Puu p) /\
    match ev with
    | None => b_Pvv p = None /\ b_Puv p = None
    | Some v => exists q r, b_Pvv p = Some q /\ b_Puv p = Some r /\
        lev (co_spectra (even_part v) (even_part v) w (1 / dt)) grid near q /\
        lev (co_spectra u (even_part v) w (1 / dt)) grid near r
    end.
Proof.
  intros Hu Hv Ht Hdt u w dt grid.
  assert (Hn : (2 <= length u)%nat).
  { unfold u. rewrite even_len, Hu. pose proof (Nat.div_le_mono 2 (length t) 2 ltac:(lia) Ht). change (2 / 2)%nat with 1%nat in H. lia. }
  assert (Hd : 0 < dt) by (unfold dt; lra).
  assert (Hfs : 0 < 1 / dt) by (apply Rdiv_lt_0_compat; lra).
  assert (Hwl : length w = length u) by apply len_hann.
  assert (Hwe : 0 < window_energy w) by now apply hann_energy.
  assert (Hg : non_decreasing grid) by (apply grid_sorted; [lia | exact Hd]).
  assert (N : forall P, length P = length grid -> exists levels,
    fbndavg P grid cfrq freq_bands = Ok levels /\ lev P grid (map (i_constit grid) cfrq) levels).
  { intros P HP. apply fbndavg_near; [apply grid_ne | exact Hg | exact HP]. }
  destruct (N (co_spectra u u w (1 / dt))) as [pu [Eu Lu]]; [unfold grid; now rewrite co_len, grid_len |].
  unfold band_psd. rewrite !trim_spec. fold u.
  destruct (Nat.ltb_spec (length (even_part t)) 2) as [Hlt | _].
  { exfalso. rewrite even_len, <- Hu in Hlt. unfold u in Hn. rewrite even_len in Hn. lia. }
  rewrite !even_nth by (rewrite <- Hu; unfold u in Hn; rewrite even_len in Hn; lia).
  fold dt. rewrite hann_spec. fold w. fold (fft_grid (length u) dt). fold grid.
  rewrite psd_list by assumption. rewrite Eu. cbn [bind].
  destruct ev as [v |]; cbn [option_map].
  - rewrite trim_spec.
    assert (Hvl : length (even_part v) = length u) by (unfold u; rewrite !even_len, Hu, (Hv v eq_refl); reflexivity).
    rewrite psd_list, cross_list by (try assumption; congruence).
    destruct (N (co_spectra (even_part v) (even_part v) w (1 / dt))) as [pv [Ev Lv]]; [unfold grid; now rewrite co_len, grid_len, Hvl |].
    destruct (N (co_spectra u (even_part v) w (1 / dt))) as [puv [Euv Luv]]; [unfold grid; now rewrite co_len, grid_len |].
    rewrite Ev. cbn [bind]. rewrite Euv. cbn [bind].
    exists (map (i_constit grid) cfrq). eexists. split; [| split; [reflexivity |]].
    + apply near_all; [apply grid_ne | exact Hg].
    + cbn. split; [exact Lu |]. exists pv, puv. auto.
  - exists (map (i_constit grid) cfrq). eexists. split; [| split; [reflexivity |]].
    + apply near_all; [apply grid_ne | exact Hg].
    + cbn. auto.
Qed.

(** ** Consequences for the levels *)
Lemma co_nonneg u w fs k : 0 < fs -> 0 < window_energy w -> 0 <= nth k (co_spectra u u w fs) 0.
Proof.
  intros Hfs Hwe. destruct (Nat.lt_ge_cases k (length u / 2 + 1)) as [Hk | Hk].
  - unfold co_spectra. rewrite (nth_map0 _ _ k 0%nat) by (rewrite seq_length; lia). rewrite seq_nth by lia. unfold co_spectrum.
    pose proof (sides_pos (length u) (0 + k)). apply Rmult_le_pos; [nra |]. left. apply Rinv_0_lt_compat. nra.
  - rewrite nth_overflow; [lra |]. rewrite co_len. lia.
Qed.
Lemma co_bound u v w fs k : length v = length u -> 0 < fs -> 0 < window_energy w ->
  nth k (co_spectra u v w fs) 0 ^ 2 <= nth k (co_spectra u u w fs) 0 * nth k (co_spectra v v w fs) 0.
Proof.
  intros Hv Hfs Hwe. destruct (Nat.lt_ge_cases k (length u / 2 + 1)) as [Hk | Hk].
  - unfold co_spectra. rewrite !(nth_map0 _ _ k 0%nat) by (rewrite seq_length; rewrite ?Hv; lia).
    rewrite !seq_nth by (rewrite ?Hv; lia). rewrite Nat.add_0_l. unfold co_spectrum. rewrite Hv.
    set (s := sides (length u) k). set (q := fs * window_energy w).
    set (a := dft_cos u w k). set (b := dft_cos v w k). set (c := dft_sin u w k). set (d := dft_sin v w k).
    assert (0 < q) by (unfold q; nra).
    replace ((s * (a * b + c * d) / q) ^ 2) with ((s / q) ^ 2 * (a * b + c * d) ^ 2) by (field; lra).
    replace (s * (a * a + c * c) / q * (s * (b * b + d * d) / q)) with ((s / q) ^ 2 * ((a * a + c * c) * (b * b + d * d))) by (field; lra).
    apply Rmult_le_compat_l; [apply pow2_ge_0 |]. assert (0 <= (a * d - b * c) ^ 2) by apply pow2_ge_0. nra.
  - rewrite !nth_overflow; [lra | rewrite co_len; rewrite ?Hv; lia .. ].
Qed.

(** Cauchy-Schwarz for sums of terms with z^2 <= x y *)
Lemma quad_disc X Y Z : 0 <= X -> 0 <= Y -> (forall s, 0 <= X * s ^ 2 + 2 * Z * s + Y) -> Z ^ 2 <= X * Y.
Proof.
  intros HX HY H. destruct (Req_dec X 0) as [-> | HX0].
  - destruct (Req_dec Z 0) as [-> | HZ]; [lra |]. exfalso.
    specialize (H (- (Y + 1) / (2 * Z))). replace (0 * (- (Y + 1) / (2 * Z)) ^ 2 + 2 * Z * (- (Y + 1) / (2 * Z)) + Y) with (-1) in H by (field; exact HZ). lra.
  - specialize (H (- Z / X)). replace (X * (- Z / X) ^ 2 + 2 * Z * (- Z / X) + Y) with ((X * Y - Z ^ 2) / X) in H by (field; exact HX0).
    assert (0 < X) by lra. apply Rmult_le_reg_r with (/ X); [now apply Rinv_0_lt_compat |].
    unfold Rdiv in H. lra.
Qed.
Lemma cs_sums (x y z : nat -> R) idx : (forall i, 0 <= x i) -> (forall i, 0 <= y i) -> (forall i, z i ^ 2 <= x i * y i) ->
  rsum (map z idx) ^ 2 <= rsum (map x idx) * rsum (map y idx).
Proof.
  intros Hx Hy Hz. apply quad_disc.
  - induction idx; cbn; [lra |]. pose proof (Hx a). unfold rsum in IHidx. lra.
  - induction idx; cbn; [lra |]. pose proof (Hy a). unfold rsum in IHidx. lra.
  - intros s. induction idx as [|a idx IH]; [cbn; lra |]. cbn [map].
    change (rsum (?h :: ?t)) with (h + rsum t) in *. unfold rsum in *. cbn [fold_right].
    assert (0 <= x a * s ^ 2 + 2 * z a * s + y a); [| nra].
    specialize (Hx a). specialize (Hy a). specialize (Hz a).
    destruct (Req_dec (x a) 0) as [E | E].
    + assert (Z0 : z a = 0) by (pose proof (pow2_ge_0 (z a)); rewrite E in Hz; nra). rewrite E, Z0. lra.
    + assert (0 < x a) by lra. apply Rmult_le_reg_l with (x a); [assumption |]. rewrite Rmult_0_r.
      replace (x a * (x a * s ^ 2 + 2 * z a * s + y a)) with ((x a * s + z a) ^ 2 + (x a * y a - z a ^ 2)) by ring.
      pose proof (pow2_ge_0 (x a * s + z a)). lra.
Qed.

Lemma idx_same P Q freq near lo hi x y : band_mean P freq near lo hi x -> band_mean Q freq near lo hi y ->
  (x = None <-> y = None) /\ forall a b, x = Some a -> y = Some b ->
  exists idx, idx <> [] /\ a * INR (length idx) = rsum (map (fun i => nth i P 0) idx) /\ b * INR (length idx) = rsum (map (fun i => nth i Q 0) idx).
Proof.
  intros [i1 [N1 [I1 M1]]] [i2 [N2 [I2 M2]]].
  assert (Pm : Permutation.Permutation i1 i2).
  { apply Permutation.NoDup_Permutation; auto. intros i. rewrite I1, I2. reflexivity. }
  split.
  - destruct x, y; cbn in *; split; intros E; try discriminate; try reflexivity.
    + subst. apply Permutation.Permutation_sym, Permutation.Permutation_nil in Pm. now elim (proj1 M1).
    + subst. apply Permutation.Permutation_nil in Pm. now elim (proj1 M2).
  - intros a b -> ->. destruct M1 as [Na Ea], M2 as [Nb Eb]. exists i1. split; [exact Na |]. split; [exact Ea |].
    rewrite (Permutation.Permutation_length Pm), Eb.
    assert (G : forall l l', Permutation.Permutation l l' -> rsum l = rsum l').
    { induction 1; cbn; unfold rsum in *; lra. }
    apply G. now apply Permutation.Permutation_map, Permutation.Permutation_sym.
Qed.

Lemma mean_cs P Q S freq near lo hi x y z : (forall i, 0 <= nth i P 0) -> (forall i, 0 <= nth i Q 0) ->
  (forall i, nth i S 0 ^ 2 <= nth i P 0 * nth i Q 0) ->
  band_mean P freq near lo hi (Some x) -> band_mean Q freq near lo hi (Some y) -> band_mean S freq near lo hi (Some z) ->
  z ^ 2 <= x * y.
Proof.
  intros HP HQ HS [i1 [N1 [I1 [M1 E1]]]] [i2 [N2 [I2 [M2 E2]]]] [i3 [N3 [I3 [M3 E3]]]].
  assert (G : forall l l', Permutation.Permutation l l' -> rsum l = rsum l').
  { induction 1; cbn; unfold rsum in *; lra. }
  assert (P2 : Permutation.Permutation i2 i1) by (apply Permutation.NoDup_Permutation; auto; intros i; rewrite I1, I2; reflexivity).
  assert (P3 : Permutation.Permutation i3 i1) by (apply Permutation.NoDup_Permutation; auto; intros i; rewrite I1, I3; reflexivity).
  rewrite (Permutation.Permutation_length P2), (G _ _ (Permutation.Permutation_map _ P2)) in E2.
  rewrite (Permutation.Permutation_length P3), (G _ _ (Permutation.Permutation_map _ P3)) in E3.
  pose proof (cs_sums (fun i => nth i P 0) (fun i => nth i Q 0) (fun i => nth i S 0) i1 HP HQ HS) as C.
  rewrite <- E1, <- E2, <- E3 in C.
  assert (0 < INR (length i1)) by (apply lt_0_INR; destruct i1; [now elim M1 | cbn; lia]).
  apply Rmult_le_reg_r with (INR (length i1) ^ 2); [now apply pow_lt |].
  replace (z ^ 2 * INR (length i1) ^ 2) with ((z * INR (length i1)) ^ 2) by ring.
  replace (x * y * INR (length i1) ^ 2) with (x * INR (length i1) * (y * INR (length i1))) by ring. exact C.
Qed.
