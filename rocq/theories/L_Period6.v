(** Evenly spaced data: the Lomb-Scargle spectra agree with the FFT spectra. *)
From Coq Require Import Lia Lra Psatz.
From Verif Require Import M_Base M_Lib M_Slvinit M_Period S_Conf S_Ellipse S_Period L_Base L_Angle L_Conf6 L_Period L_Period2 L_Period3 L_Period4 L_Period5.
Open Scope R_scope.

Lemma sin_sum x n : 2 * sin (x / 2) * nsum n (fun k => sin (INR k * x)) = cos (x / 2) - cos ((INR n - / 2) * x).
Proof.
  induction n as [|n IH].
  - cbn [nsum INR]. replace ((0 - / 2) * x) with (- (x / 2)) by field. rewrite cos_neg. ring.
  - cbn [nsum]. rewrite Rmult_plus_distr_l, IH, S_INR.
    replace ((INR n + 1 - / 2) * x) with (INR n * x + x / 2) by field.
    replace ((INR n - / 2) * x) with (INR n * x - x / 2) by field.
    rewrite cos_plus, cos_minus. ring.
Qed.
Lemma sin_roots n m : (0 < n)%nat -> (- Z.of_nat n < m < Z.of_nat n)%Z -> m <> 0%Z ->
  nsum n (fun k => sin (2 * PI * INR k * IZR m / INR n)) = 0.
Proof.
  intros Hn Hm Hz. assert (HN : 0 < INR n) by now apply lt_0_INR.
  set (x := 2 * PI * IZR m / INR n).
  rewrite (nsum_ext n _ (fun k => sin (INR k * x))) by (intros; f_equal; unfold x; field; lra).
  assert (Hs : sin (x / 2) <> 0).
  { replace (x / 2) with (PI * IZR m / INR n) by (unfold x; field; lra). now apply sin_frac_nz. }
  pose proof (sin_sum x n) as H.
  replace ((INR n - / 2) * x) with (- (x / 2) + 2 * IZR m * PI) in H by (unfold x; field; lra).
  assert (E : cos (- (x / 2) + 2 * IZR m * PI) = cos (x / 2)).
  { rewrite cos_plus, cos_neg. replace (2 * IZR m * PI) with (IZR (2 * m) * PI) by (rewrite mult_IZR; ring).
    rewrite sin_Zpi. replace (IZR (2 * m) * PI) with (2 * (IZR m * PI)) by (rewrite mult_IZR; ring).
    rewrite cos_2a_sin, sin_Zpi. ring. }
  rewrite E in H. apply Rmult_eq_reg_l with (2 * sin (x / 2)); [lra |]. intros H0. apply Hs. lra.
Qed.

Lemma interp_in x xp fp : (0 < length xp)%nat -> (0 < length fp)%nat -> nth 0 xp 0 <= x -> interp x xp fp = interp_aux x xp fp.
Proof.
  destruct xp as [|a xp]; [cbn; lia |]. destruct fp as [|p fp]; [cbn; lia |]. intros _ _ H. change (nth 0 (a :: xp) 0) with a in H.
  unfold interp. destruct (Rlt_dec x a); [lra | reflexivity].
Qed.

Section Even.
Variables (n : nat) (t0 dt : R).
Hypothesis Hn : (2 <= n)%nat.
Hypothesis Hdt : 0 < dt.
Notation t := (map (fun j => t0 + INR j * dt) (seq 0 n)).

Lemma at_even f : at_times t f = nsum n (fun j => f (t0 + INR j * dt)).
Proof. unfold at_times. rewrite map_map. apply rsum_nsum. Qed.
Lemma data_even x f : length x = n -> with_data t x f = nsum n (fun j => nth j x 0 * f (t0 + INR j * dt)).
Proof.
  intros Hx. unfold with_data. rewrite rsum_nth. rewrite map_length, combine_length, map_length, seq_length, Hx, Nat.min_id.
  apply nsum_ext. intros j Hj. rewrite (nth_map0 _ _ j (0, 0)) by (rewrite combine_length, map_length, seq_length; lia).
  rewrite combine_nth by (rewrite map_length, seq_length; lia). cbn [fst snd].
  rewrite (nth_map0 (fun j => t0 + INR j * dt) _ j 0%nat) by now rewrite seq_length. rewrite seq_nth by exact Hj. reflexivity.
Qed.
Lemma t_nth j : (j < n)%nat -> nth j t 0 = t0 + INR j * dt.
Proof. intros Hj. rewrite (nth_map0 (fun j => t0 + INR j * dt) _ j 0%nat) by now rewrite seq_length. now rewrite seq_nth. Qed.
Lemma t_len : length t = n.
Proof. now rewrite map_length, seq_length. Qed.
Lemma t_hd : hd 0 t = t0.
Proof. rewrite hd_nth, t_nth by lia. cbn [INR]. ring. Qed.
Lemma t_last : last t 0 = t0 + INR (n - 1) * dt.
Proof. rewrite last_nth, t_len, t_nth by lia. reflexivity. Qed.

Lemma fold_min l d : (forall x, In x l -> d <= x) -> fold_left Rmin l d = d.
Proof. revert d. induction l as [|a l IH]; intros d H; [reflexivity |]. cbn [fold_left]. rewrite Rmin_left by (apply H; now left). apply IH. intros; apply H; now right. Qed.
Lemma fold_max_ge l d : d <= fold_left Rmax l d /\ forall x, In x l -> x <= fold_left Rmax l d.
Proof.
  revert d. induction l as [|a l IH]; intros d; cbn [fold_left]; [split; [lra | intros x []] |].
  destruct (IH (Rmax d a)) as [H1 H2]. pose proof (Rmax_l d a). pose proof (Rmax_r d a). split; [lra |].
  intros x [<- | Hx]; [lra | now apply H2].
Qed.
Lemma fold_max_le l d M : d <= M -> (forall x, In x l -> x <= M) -> fold_left Rmax l d <= M.
Proof. revert d. induction l as [|a l IH]; intros d Hd H; [exact Hd |]. cbn [fold_left]. apply IH; [apply Rmax_lub; [exact Hd | apply H; now left] |]. intros; apply H; now right. Qed.
Lemma t_in x : In x t -> exists j, (j < n)%nat /\ x = t0 + INR j * dt.
Proof. intros H. apply in_map_iff in H. destruct H as [j [<- Hj]]. apply in_seq in Hj. exists j. split; [lia | reflexivity]. Qed.
Lemma t_min : rmin t (hd 0 t) = t0.
Proof.
  rewrite t_hd. apply fold_min. intros x Hx. apply t_in in Hx. destruct Hx as [j [_ ->]]. pose proof (pos_INR j). nra.
Qed.
Lemma t_max : rmax t (hd 0 t) = t0 + INR (n - 1) * dt.
Proof.
  apply Rle_antisym.
  - apply fold_max_le.
    + rewrite t_hd. pose proof (pos_INR (n - 1)). nra.
    + intros x Hx. apply t_in in Hx. destruct Hx as [j [Hj ->]]. pose proof (le_INR j (n - 1) ltac:(lia)). nra.
  - apply (proj2 (fold_max_ge t (hd 0 t))). apply in_map_iff. exists (n - 1)%nat. split; [reflexivity |]. apply in_seq. lia.
Qed.
Lemma t_uniform : linspace (rmin t (hd 0 t)) (rmax t (hd 0 t)) n = t.
Proof.
  rewrite t_min, t_max. unfold linspace. apply map_ext. intros j. assert (0 < INR (n - 1)) by (apply lt_0_INR; lia). field. lra.
Qed.

Lemma interp_aux_knot : forall xp fp j, (forall i, (S i < length xp)%nat -> nth i xp 0 < nth (S i) xp 0) -> length fp = length xp -> (j < length xp)%nat ->
  (forall i, (i < length xp)%nat -> nth 0 xp 0 <= nth i xp 0) ->
  interp_aux (nth j xp 0) xp fp = nth j fp 0.
Proof.
  induction xp as [|a xp IH]; intros fp j Hs Hl Hj Hm; [cbn in Hj; lia |].
  destruct fp as [|p fp]; [discriminate |]. destruct xp as [|b xp].
  - assert (j = 0)%nat as -> by (cbn in Hj; lia). destruct fp; reflexivity.
  - destruct fp as [|q fp]; [discriminate |]. pose proof (Hs 0%nat ltac:(cbn; lia)) as Hab. cbn [nth] in Hab.
    change (interp_aux (nth j (a :: b :: xp) 0) (a :: b :: xp) (p :: q :: fp))
      with (if Rlt_dec (nth j (a :: b :: xp) 0) b then (q - p) / (b - a) * (nth j (a :: b :: xp) 0 - a) + p else interp_aux (nth j (a :: b :: xp) 0) (b :: xp) (q :: fp)).
    assert (Hm' : forall i, (i < length (b :: xp))%nat -> b <= nth i (b :: xp) 0).
    { induction i as [|i IHi]; intros Hi; [cbn; lra |]. specialize (IHi ltac:(lia)). pose proof (Hs (S i) ltac:(cbn in Hi |- *; lia)) as H.
      change (nth (S i) (a :: b :: xp) 0) with (nth i (b :: xp) 0) in H. change (nth (S (S i)) (a :: b :: xp) 0) with (nth (S i) (b :: xp) 0) in H. lra. }
    destruct j as [|j].
    + cbn [nth]. destruct (Rlt_dec a b); [| lra]. field. lra.
    + change (nth (S j) (a :: b :: xp) 0) with (nth j (b :: xp) 0). change (nth (S j) (p :: q :: fp) 0) with (nth j (q :: fp) 0).
      destruct (Rlt_dec (nth j (b :: xp) 0) b) as [H | H]; [pose proof (Hm' j ltac:(cbn in Hj |- *; lia)); lra |].
      apply IH.
      * intros i Hi. apply (Hs (S i)). cbn in Hi |- *. lia.
      * cbn in Hl |- *. lia.
      * cbn in Hj |- *. lia.
      * intros i Hi. now apply Hm'.
Qed.
Lemma t_interp w : length w = n -> map (fun x => interp x t w) t = w.
Proof.
  intros Hw. apply nth_ext with (d := 0) (d' := 0); [now rewrite map_length, t_len |].
  intros j Hj. rewrite map_length, t_len in Hj.
  assert (Hge : forall i, (i < length t)%nat -> nth 0 t 0 <= nth i t 0).
  { intros i Hi. rewrite t_len in Hi. rewrite !t_nth by lia. pose proof (pos_INR i). cbn [INR]. nra. }
  rewrite (nth_map0 _ t j 0) by (rewrite t_len; exact Hj).
  transitivity (interp_aux (nth j t 0) t w).
  - apply interp_in; [rewrite t_len; lia | lia |]. apply Hge. now rewrite t_len.
  - apply interp_aux_knot.
    + intros i Hi. rewrite t_len in Hi. rewrite !t_nth by lia. rewrite S_INR. lra.
    + now rewrite t_len.
    + now rewrite t_len.
    + exact Hge.
Qed.

(** at the interior Fourier frequencies every phase is orthogonal and both norms are n / 2 *)
Variable k : nat.
Hypothesis Hk : (0 < k /\ 2 * k < n)%nat.
Notation w := (INR k / (INR n * dt) * 2 * PI).
Lemma HN : 0 < INR n.
Proof. apply lt_0_INR. lia. Qed.
Lemma phase_at tau j : w * (t0 + INR j * dt) - tau = 2 * PI * INR k * INR j / INR n + (w * t0 - tau).
Proof. pose proof HN. field. lra. Qed.
Lemma double_cos c : nsum n (fun j => cos (2 * (2 * PI * INR k * INR j / INR n + c))) = 0.
Proof.
  pose proof HN as HN'.
  rewrite (nsum_ext n _ (fun j => cos (2 * c) * cos (2 * PI * INR j * IZR (Z.of_nat (2 * k)) / INR n) + - sin (2 * c) * sin (2 * PI * INR j * IZR (Z.of_nat (2 * k)) / INR n))).
  - rewrite nsum_plus, !nsum_scal, cos_roots, sin_roots by lia. destruct (Z.eq_dec _ 0); [lia |]. ring.
  - intros j _. rewrite <- INR_IZR_INZ, mult_INR. change (INR 2) with 2.
    replace (2 * (2 * PI * INR k * INR j / INR n + c)) with (2 * PI * INR j * (2 * INR k) / INR n + 2 * c) by (field; lra).
    rewrite cos_plus. ring.
Qed.
Lemma double_sin c : nsum n (fun j => sin (2 * (2 * PI * INR k * INR j / INR n + c))) = 0.
Proof.
  pose proof HN as HN'.
  rewrite (nsum_ext n _ (fun j => cos (2 * c) * sin (2 * PI * INR j * IZR (Z.of_nat (2 * k)) / INR n) + sin (2 * c) * cos (2 * PI * INR j * IZR (Z.of_nat (2 * k)) / INR n))).
  - rewrite nsum_plus, !nsum_scal, cos_roots, sin_roots by lia. destruct (Z.eq_dec _ 0); [lia |]. ring.
  - intros j _. rewrite <- INR_IZR_INZ, mult_INR. change (INR 2) with 2.
    replace (2 * (2 * PI * INR k * INR j / INR n + c)) with (2 * PI * INR j * (2 * INR k) / INR n + 2 * c) by (field; lra).
    rewrite sin_plus. ring.
Qed.
Lemma nsum_const m c : nsum m (fun _ => c) = INR m * c.
Proof. induction m; [cbn; ring |]. cbn [nsum]. rewrite IHm, S_INR. ring. Qed.
Lemma even_orth tau : orthogonal_phase t w tau.
Proof. unfold orthogonal_phase. rewrite at_even. rewrite <- (double_sin (w * t0 - tau)). apply nsum_ext. intros j _. now rewrite phase_at. Qed.
Lemma even_cos2 tau : at_times t (fun x => cos (w * x - tau) ^ 2) = INR n / 2.
Proof.
  rewrite at_even. rewrite (nsum_ext n _ (fun j => / 2 + / 2 * cos (2 * (2 * PI * INR k * INR j / INR n + (w * t0 - tau))))).
  - rewrite nsum_plus, nsum_scal, double_cos, nsum_const. field.
  - intros j _. rewrite phase_at. rewrite cos_2a_cos. field.
Qed.
Lemma even_sin2 tau : at_times t (fun x => sin (w * x - tau) ^ 2) = INR n / 2.
Proof.
  rewrite at_even. rewrite (nsum_ext n _ (fun j => / 2 + - / 2 * cos (2 * (2 * PI * INR k * INR j / INR n + (w * t0 - tau))))).
  - rewrite nsum_plus, nsum_scal, double_cos, nsum_const. field.
  - intros j _. rewrite phase_at. rewrite cos_2a_sin. field.
Qed.
Lemma even_resolved : resolved t w.
Proof. intros tau _. rewrite even_cos2, even_sin2. pose proof HN. split; lra. Qed.

(** cross power at any phase; the value does not depend on it *)
Lemma even_power x y : length x = n -> length y = n -> lomb_power t x y w (w * t0) =
  (nsum n (fun j => nth j x 0 * cos (2 * PI * INR k * INR j / INR n)) * nsum n (fun j => nth j y 0 * cos (2 * PI * INR k * INR j / INR n)) +
   nsum n (fun j => nth j x 0 * sin (2 * PI * INR k * INR j / INR n)) * nsum n (fun j => nth j y 0 * sin (2 * PI * INR k * INR j / INR n))) / INR n.
Proof.
  intros Hx Hy. unfold lomb_power. rewrite even_cos2, even_sin2, !data_even by assumption.
  assert (E : forall z f g, (forall a, f a = g a) -> nsum n (fun j => nth j z 0 * f (w * (t0 + INR j * dt) - w * t0)) = nsum n (fun j => nth j z 0 * g (2 * PI * INR k * INR j / INR n))).
  { intros z f g H. apply nsum_ext. intros j _. rewrite phase_at, H. f_equal. f_equal. ring. }
  rewrite !(E _ cos cos), !(E _ sin sin) by reflexivity. pose proof HN. field. lra.
Qed.
Lemma power_any_phase x y tau : length x = n -> length y = n -> lomb_power t x y w tau = lomb_power t x y w (w * t0).
Proof.
  intros Hx Hy. unfold lomb_power. rewrite !even_cos2, !even_sin2. unfold Rdiv. f_equal. rewrite <- !Rmult_plus_distr_r. f_equal.
  rewrite !data_even by assumption. set (c := w * t0 - tau).
  assert (Ec : forall z, nsum n (fun j => nth j z 0 * cos (w * (t0 + INR j * dt) - tau)) =
    cos c * nsum n (fun j => nth j z 0 * cos (w * (t0 + INR j * dt) - w * t0)) - sin c * nsum n (fun j => nth j z 0 * sin (w * (t0 + INR j * dt) - w * t0))).
  { intros z. rewrite <- !nsum_scal. unfold Rminus at 2. rewrite <- (Rmult_1_l (nsum n (fun i => sin c * _))), <- Ropp_mult_distr_l_reverse, <- nsum_scal, <- nsum_plus.
    apply nsum_ext. intros j _. replace (w * (t0 + INR j * dt) - tau) with ((w * (t0 + INR j * dt) - w * t0) + c) by (unfold c; ring). rewrite cos_plus. ring. }
  assert (Es : forall z, nsum n (fun j => nth j z 0 * sin (w * (t0 + INR j * dt) - tau)) =
    sin c * nsum n (fun j => nth j z 0 * cos (w * (t0 + INR j * dt) - w * t0)) + cos c * nsum n (fun j => nth j z 0 * sin (w * (t0 + INR j * dt) - w * t0))).
  { intros z. rewrite <- !nsum_scal, <- nsum_plus.
    apply nsum_ext. intros j _. replace (w * (t0 + INR j * dt) - tau) with ((w * (t0 + INR j * dt) - w * t0) + c) by (unfold c; ring). rewrite sin_plus. ring. }
  rewrite !Ec, !Es. set (X := nsum n _). set (X' := nsum n _). set (Y := nsum n _). set (Y' := nsum n _).
  pose proof (sin2_cos2 c) as H. unfold Rsqr in H.
  transitivity ((X * Y + X' * Y') * (sin c * sin c + cos c * cos c)); [ring |]. rewrite H. ring.
Qed.
End Even.

Lemma lomb_is_fft L n t0 dt u ev freqs : lomb_contract L -> 0 < dt -> (2 <= n)%nat -> Nat.Even n -> length u = n -> (forall v, ev = Some v -> length v = n) ->
  let t := map (fun j => t0 + INR j * dt) (seq 0 n) in
  let w := hann_window n in
  let r := psd_lomb L t u ev w freqs in
  forall i k, (i < length freqs)%nat -> (0 < k /\ 2 * k < n)%nat -> nth i freqs 0 = INR k / (INR n * dt) ->
  nth i (fst r) 0 = co_spectrum u u w (1 / dt) k /\
  match ev, snd r with
  | Some v, Some (Pv, Puv) => nth i Pv 0 = co_spectrum v v w (1 / dt) k /\ nth i Puv 0 = co_spectrum u v w (1 / dt) k
  | None, None => True
  | _, _ => False
  end.
Proof.
  intros HL Hdt Hn He Hu Hv t w r i k Hi Hk Hf.
  assert (Hlt : length t = n) by (apply t_len).
  assert (Hlw : length w = n) by apply len_hann.
  assert (Hwe : 0 < window_energy w) by now apply hann_energy.
  assert (HN : 0 < INR n) by (apply lt_0_INR; lia).
  unfold r, psd_lomb. rewrite Hlt. rewrite (t_uniform n t0 dt Hn Hdt : linspace (rmin t (hd 0 t)) (rmax t (hd 0 t)) n = t).
  rewrite (t_interp n t0 dt Hn Hdt w Hlw : map (fun x => interp x t w) t = w).
  rewrite (t_hd n t0 dt Hn : hd 0 t = t0), (t_last n t0 dt Hn : last t 0 = _).
  replace ((t0 + INR (n - 1) * dt - t0) / INR (n - 1)) with dt by (assert (0 < INR (n - 1)) by (apply lt_0_INR; lia); field; lra).
  rewrite sumsq_energy.
  assert (Hfr : nth i (map (fun f => f * 2 * PI) freqs) 0 = INR k / (INR n * dt) * 2 * PI) by (rewrite (nth_map0 _ _ i 0) by exact Hi; now rewrite Hf).
  assert (Hsides : sides n k = 2).
  { unfold sides. destruct He as [h He]. assert (n / 2 = h)%nat as -> by (rewrite He, Nat.mul_comm; apply Nat.div_mul; lia).
    destruct (Nat.eqb_spec k 0); [lia |]. destruct (Nat.eqb_spec k h); [lia | reflexivity]. }
  assert (Htap : forall z, length z = n -> length (rmulv (demean z) w) = n) by (intros z Hz; rewrite len_rmulv, len_demean; [exact Hz | rewrite len_demean; congruence]).
  assert (Hdft : forall z f, length z = n -> nsum n (fun j => nth j (rmulv (demean z) w) 0 * f (2 * PI * INR k * INR j / INR n)) =
    sum_over (length z) (fun j => tapered z w j * f (2 * PI * INR k * INR j / INR (length z)))).
  { intros z f Hz. rewrite sum_over_nsum, Hz. apply nsum_ext. intros j Hj. rewrite nth_taper by (try rewrite Hz; auto; congruence). reflexivity. }
  assert (Hpow : forall x y, length x = n -> length y = n ->
    2 * dt * INR n / window_energy w * lomb_power t (rmulv (demean x) w) (rmulv (demean y) w) (INR k / (INR n * dt) * 2 * PI) (INR k / (INR n * dt) * 2 * PI * t0) = co_spectrum x y w (1 / dt) k).
  { intros x y Hx Hy. rewrite (even_power n t0 dt Hn Hdt k Hk) by auto. rewrite !(Hdft _ cos), !(Hdft _ sin) by assumption.
    unfold co_spectrum. rewrite Hx, Hsides. unfold dft_cos, dft_sin. rewrite Hx, Hy. field. lra. }
  assert (Hres : resolved t (INR k / (INR n * dt) * 2 * PI)) by now apply even_resolved.
  assert (Hlomb : forall z, length z = n -> nth i (map (fun x => 2 * dt * INR n / window_energy w * x) (l_lomb L t (rmulv (demean z) w) (map (fun f => f * 2 * PI) freqs))) 0 =
     co_spectrum z z w (1 / dt) k).
  { intros z Hz. assert (Hlz : length t = length (rmulv (demean z) w)) by (rewrite Htap; assumption).
    rewrite (nth_map0 _ _ i 0) by (rewrite lomb_len, map_length; assumption).
    pose proof (HL t (rmulv (demean z) w) (map (fun f => f * 2 * PI) freqs) Hlz) as F.
    pose proof (Forall2_nth2 _ _ _ i 0 0 F ltac:(now rewrite map_length)) as F1. cbv beta in F1. rewrite Hfr in F1.
    rewrite (F1 (INR k / (INR n * dt) * 2 * PI * t0) Hres) by now apply even_orth. now apply Hpow. }
  cbn [fst snd]. split; [now apply Hlomb |].
  destruct ev as [v |]; cbn [option_map]; [| exact I]. specialize (Hv v eq_refl). split; [now apply Hlomb |].
  rewrite (nth_map0 _ _ i 0) by now rewrite !map_length. rewrite (nth_map0 _ _ i 0) by now rewrite map_length. rewrite Hfr.
  rewrite (ls_cross_val _ _ _ _ Hres). rewrite (power_any_phase n t0 dt Hn Hdt k Hk) by auto. now apply Hpow.
Qed.
