(** Closing lemmas and examples for the residual spectra. *)
From Coq Require Import Lia Lra Psatz.
From Verif Require Import M_Base M_Lib M_Slvinit M_Period S_Conf S_Period L_Base L_Period L_Period2 L_Period3 L_Period4 L_Period5 L_Period6 L_Period7 L_Period8.
Open Scope R_scope.

Lemma fbndavg_between P freq cfreq bands levels : freq <> [] -> non_decreasing freq -> length P = length freq ->
  fbndavg P freq cfreq bands = Ok levels ->
  exists near, Forall2 (nearest_bin freq) cfreq near /\
  Forall2 (fun b x => forall m M, (forall i, counts freq (fst b) (snd b) i -> ~ In i near -> m <= nth i P 0 <= M) ->
    match x with Some a => m <= a <= M | None => forall i, counts freq (fst b) (snd b) i -> In i near end) bands levels.
Proof.
  intros H1 H2 H3 E. destruct (fbndavg_spec P freq cfreq bands H1 H2 H3) as [near [l [Hn [E' F]]]].
  rewrite E in E'. inversion E'. subst l. exists near. split; [exact Hn |].
  eapply Forall2_imp; [| exact F]. intros b x Hb m M HmM. cbv beta in Hb. destruct x as [a |].
  - eapply band_mean_between; eassumption.
  - destruct Hb as [idx [_ [Hi ->]]]. intros i Hc. destruct (in_dec Nat.eq_dec i near) as [H | H]; [exact H |].
    destruct (proj2 (Hi i) (conj Hc H)).
Qed.

Lemma band_even' L t eu ev cfrq : length eu = length t -> (forall v, ev = Some v -> length v = length t) ->
  (2 <= length t)%nat -> nth 0 t 0 < nth 1 t 0 ->
  let u := even_part eu in let w := hann_window (length u) in let dt := 24 * (nth 1 t 0 - nth 0 t 0) in
  let grid := fft_grid (length u) dt in
  exists near p, Forall2 (nearest_bin grid) cfrq near /\ band_psd L t eu ev cfrq true = Ok p /\
    band_levels tidal_bands (co_spectra u u w (1 / dt)) grid near (b_Puu p) /\
    match ev with
    | None => b_Pvv p = None /\ b_Puv p = None
    | Some v => exists q r, b_Pvv p = Some q /\ b_Puv p = Some r /\
        band_levels tidal_bands (co_spectra (even_part v) (even_part v) w (1 / dt)) grid near q /\
        band_levels tidal_bands (co_spectra u (even_part v) w (1 / dt)) grid near r
    end.
Proof. unfold band_levels. rewrite <- bands_eq. exact (band_even L t eu ev cfrq). Qed.

Lemma band_uneven' L t eu ev cfrq : lomb_contract L -> length eu = length t -> (forall v, ev = Some v -> length v = length t) ->
  let th := map (fun x => x * 24) (even_part t) in
  let grid := lomb_freqs th tidal_bands 500 in
  (2 <= length t)%nat -> hd 0 th < last th 0 ->
  let spectra := psd_lomb L th (even_part eu) (option_map even_part ev) (hann_window (length th)) grid in
  (grid = [] -> band_psd L t eu ev cfrq false = Err ValueError) /\
  (grid <> [] ->
   exists near p, Forall2 (nearest_bin grid) cfrq near /\ band_psd L t eu ev cfrq false = Ok p /\
    band_levels tidal_bands (fst spectra) grid near (b_Puu p) /\
    match snd spectra with
    | None => ev = None /\ b_Pvv p = None /\ b_Puv p = None
    | Some (Pv, Puv) => ev <> None /\ exists q r, b_Pvv p = Some q /\ b_Puv p = Some r /\
        band_levels tidal_bands Pv grid near q /\ band_levels tidal_bands Puv grid near r
    end).
Proof. unfold band_levels. rewrite <- bands_eq. exact (band_uneven L t eu ev cfrq). Qed.

Lemma flat_map_nil {A B} (f : A -> list B) l : (forall x, f x = []) -> flat_map f l = [].
Proof. intros H. induction l; cbn; [reflexivity |]. now rewrite H, IHl. Qed.
Lemma band_too_few L t eu ev cfrq : (length t = 2 \/ length t = 3)%nat -> band_psd L t eu ev cfrq false = Err ValueError.
Proof.
  intros Ht. assert (Hl : length (even_part t) = 2%nat) by (rewrite even_len; destruct Ht as [-> | ->]; reflexivity).
  assert (G : lomb_freqs (map (fun x => x * 24) (even_part t)) freq_bands 500 = []).
  { unfold lomb_freqs. rewrite (map_length (fun x => x * 24) (even_part t)), Hl. apply flat_map_nil. intros [lo hi]. unfold slice. cbn. reflexivity. }
  unfold band_psd. rewrite !trim_spec. destruct (Nat.ltb_spec (length (even_part t)) 2); [lia |].
  rewrite G. destruct (psd_lomb _ _ _ _ _ _) as [p q]. reflexivity.
Qed.

Lemma hann_ok n : (2 <= n)%nat -> hann n = hann_window n /\ length (hann_window n) = n /\ 0 < window_energy (hann_window n).
Proof. intros Hn. split; [apply hann_spec |]. split; [apply len_hann | now apply hann_energy]. Qed.

Lemma total_example : rsum (psd [3; 1] (hann 2) 1) * (1 / 2) = 1.
Proof.
  destruct (hann_ok 2 ltac:(lia)) as [-> [Hl He]].
  pose proof (psd_total [3; 1] (hann_window 2) 1 Hl ltac:(exists 1%nat; reflexivity) ltac:(cbn; lia) ltac:(lra) He) as H.
  change (INR (length [3; 1])) with 2 in H. rewrite H. clear.
  unfold window_energy, sum_over, tapered, average, hann_window. cbn [length seq map nth rsum fold_right INR].
  replace (PI * 0 / (1 + 1)) with 0 by field. replace (PI * 1 / (1 + 1)) with (PI / 2) by field.
  rewrite sin_0, sin_PI2. field.
Qed.

Lemma even_levels L t eu ev cfrq p : length eu = length t -> (forall v, ev = Some v -> length v = length t) ->
  (2 <= length t)%nat -> nth 0 t 0 < nth 1 t 0 -> band_psd L t eu ev cfrq true = Ok p ->
  (forall x, In (Some x) (b_Puu p) -> 0 <= x) /\
  forall q r, b_Pvv p = Some q -> b_Puv p = Some r ->
    (forall x, In (Some x) q -> 0 <= x) /\
    forall k x y z, nth k (b_Puu p) None = Some x -> nth k q None = Some y -> nth k r None = Some z -> z ^ 2 <= x * y.
Proof.
  intros Hu Hv Ht Hd E. destruct (band_even L t eu ev cfrq Hu Hv Ht Hd) as [near [p' [_ [E' [H1 H2]]]]].
  rewrite E in E'. inversion E'. subst p'. clear E'.
  set (u := even_part eu) in *. set (w := hann_window (length u)) in *. set (dt := 24 * _) in *.
  assert (Hd' : 0 < dt) by (unfold dt; lra). assert (Hfs : 0 < 1 / dt) by (apply Rdiv_lt_0_compat; lra).
  assert (Hlu : (2 <= length u)%nat).
  { unfold u. rewrite even_len, Hu. pose proof (Nat.div_le_mono 2 (length t) 2 ltac:(lia) Ht). change (2 / 2)%nat with 1%nat in H. lia. }
  assert (Hwe : 0 < window_energy w) by now apply hann_energy.
  split; [eapply lev_nonneg; [| exact H1]; intros; now apply co_nonneg |].
  intros q r Hq Hr. destruct ev as [v |]; [| destruct H2; congruence]. destruct H2 as [q' [r' [Eq [Er [Lq Lr]]]]].
  rewrite Hq in Eq. rewrite Hr in Er. inversion Eq. inversion Er. subst q' r'.
  split; [eapply lev_nonneg; [| exact Lq]; intros; now apply co_nonneg |].
  eapply lev_cs; [| | | exact H1 | exact Lq | exact Lr].
  - intros; now apply co_nonneg.
  - intros; now apply co_nonneg.
  - intros; apply co_bound; auto. unfold u. rewrite !even_len, (Hv v), Hu; reflexivity.
Qed.

Lemma methods_agree L n t0 dt u ev freqs : lomb_contract L -> 0 < dt -> (2 <= n)%nat -> Nat.Even n -> length u = n -> (forall v, ev = Some v -> length v = n) ->
  let t := map (fun j => t0 + INR j * dt) (seq 0 n) in
  let w := hann_window n in
  let r := psd_lomb L t u ev w freqs in
  forall i k, (i < length freqs)%nat -> (0 < k /\ 2 * k < n)%nat -> nth i freqs 0 = INR k / (INR n * dt) ->
  nth i (fst r) 0 = nth k (psd u w (1 / dt)) 0 /\
  match ev, snd r with
  | Some v, Some (Pv, Puv) => nth i Pv 0 = nth k (psd v w (1 / dt)) 0 /\ nth i Puv 0 = nth k (psd_cross u v w (1 / dt)) 0
  | None, None => True
  | _, _ => False
  end.
Proof.
  intros HL Hdt Hn He Hu Hv t w r i k Hi Hk Hf.
  destruct (lomb_is_fft L n t0 dt u ev freqs HL Hdt Hn He Hu Hv i k Hi Hk Hf) as [H1 H2].
  fold t in H1, H2. fold w in H1, H2. fold r in H1, H2.
  assert (Hfs : 0 < 1 / dt) by (apply Rdiv_lt_0_compat; lra).
  assert (Hwe : 0 < window_energy w) by now apply hann_energy. assert (Hlw : length w = n) by apply len_hann.
  assert (Hkn : (k <= n / 2)%nat) by (destruct He as [h He]; rewrite He, Nat.mul_comm, Nat.div_mul by lia; lia).
  assert (A : forall z, length z = n -> nth k (psd z w (1 / dt)) 0 = co_spectrum z z w (1 / dt) k).
  { intros z Hz. rewrite psd_val by (rewrite ?Hz; auto). unfold co_spectrum. f_equal. f_equal. ring. }
  split; [rewrite A by exact Hu; exact H1 |].
  destruct ev as [v |]; destruct (snd r) as [[Pv Puv] |]; auto. specialize (Hv v eq_refl). destruct H2 as [H2 H3].
  split; [rewrite A by exact Hv; exact H2 |]. rewrite psd_cross_val by (rewrite ?Hu, ?Hv; auto). exact H3.
Qed.

Lemma agree_example : Nat.Even 8 /\ (0 < 3 /\ 2 * 3 < 8)%nat /\
  resolved (map (fun j => 7 + INR j * 0.5) (seq 0 8)) (INR 3 / (INR 8 * 0.5) * 2 * PI).
Proof. split; [exists 4%nat; reflexivity |]. split; [lia |]. apply even_resolved; try lia. lra. Qed.

Lemma lomb_per_band t bands limit : (2 <= limit)%nat -> hd 0 t < last t 0 ->
  exists ls, lomb_freqs t bands limit = List.concat ls /\
  Forall2 (fun b l => (length l <= limit)%nat /\ non_decreasing l /\
     forall f, In f l -> 0 < f /\ fst b <= f /\ (0 < snd b -> f < snd b + fourier t 1)) bands ls.
Proof. intros Hl Ht. destruct (lomb_spec t bands limit Hl Ht) as [ls [E F]]. exists ls. split; [exact E |]. now apply lomb_each. Qed.

Lemma concat_len {A} (n : nat) (bs : list A) (P : A -> list R -> Prop) : (forall b l, P b l -> (length l <= n)%nat) ->
  forall ls, Forall2 P bs ls -> (length (List.concat ls) <= length bs * n)%nat.
Proof. intros H ls F. induction F; cbn [List.concat length]; [lia |]. rewrite app_length. specialize (H _ _ H0). lia. Qed.
Lemma lomb_whole t : hd 0 t < last t 0 ->
  non_decreasing (lomb_freqs t tidal_bands 500) /\ (length (lomb_freqs t tidal_bands 500) <= 9 * 500)%nat /\
  forall f, In f (lomb_freqs t tidal_bands 500) -> 0 < f.
Proof.
  intros Ht. split; [rewrite <- bands_eq; now apply lomb_sorted |].
  destruct (lomb_per_band t tidal_bands 500 ltac:(lia) Ht) as [ls [-> F]]. split.
  - refine (concat_len 500 tidal_bands _ _ ls F). intros b l [H _]. exact H.
  - intros f Hf. clear Ht. induction F; [destruct Hf |]. cbn [List.concat] in Hf. apply in_app_iff in Hf. destruct Hf as [Hf | Hf]; [now apply H | now apply IHF].
Qed.

Lemma lomb_example : lomb_freqs [0; 1; 3; 7] [(0.05, 0.2); (0.2, 0.3)] 500 = [3 / 28].
Proof.
  unfold lomb_freqs. cbn [length]. change (4 / 2 - 1)%nat with 1%nat. cbn [seq map length hd last flat_map].
  assert (E : INR 1 / (INR 4 * ((7 - 0) / INR (4 - 1))) = 3 / 28) by (cbn [INR Nat.sub]; field).
  rewrite E. unfold searchsorted. cbn [filter fst snd].
  destruct (Rlt_dec (3 / 28) 0.05); [lra |]. destruct (Rlt_dec (3 / 28) 0.2); [| lra]. destruct (Rlt_dec (3 / 28) 0.3); [| lra].
  reflexivity.
Qed.

Lemma fbndavg_example : fbndavg [1; 2; 3; 4] [0.1; 0.2; 0.3; 0.4] [0.21] [(0.05, 0.25)] = Ok [Some 2].
Proof.
  set (g := [0.1; 0.2; 0.3; 0.4]).
  assert (Hs : non_decreasing g).
  { intros i j [Hij Hj]. cbn in Hj. unfold g. destruct i as [|[|[|[|i]]]], j as [|[|[|[|j]]]]; try lia; cbn [nth]; lra. }
  destruct (fbndavg_spec [1; 2; 3; 4] g [0.21] [(0.05, 0.25)] ltac:(discriminate) Hs eq_refl) as [near [l [Hn [-> F]]]].
  inversion Hn as [|? n1 ? ? Hn1 Hn2]; subst. inversion Hn2; subst.
  assert (n1 = 1)%nat as ->.
  { destruct Hn1 as [Hl Hm]. specialize (Hm 1%nat ltac:(cbn; lia)). unfold g in Hl, Hm. cbn in Hl. cbn [nth] in Hm.
    destruct n1 as [|[|[|[|n1]]]]; try lia; cbn [nth] in Hm; exfalso; revert Hm; unfold Rabs; repeat destruct (Rcase_abs _); lra. }
  inversion F as [|? x ? ? Hx Hx2]; subst. inversion Hx2; subst. f_equal. f_equal.
  destruct Hx as [idx [Nd [Hi Hx]]].
  assert (C : forall i, counts g (fst (0.05, 0.25)) (snd (0.05, 0.25)) i <-> i = 0%nat \/ i = 1%nat \/ i = 2%nat).
  { intros i. unfold counts, g. cbn [fst snd length]. split.
    - intros [Hl [_ Hb]]. destruct i as [|[|[|[|i]]]]; try lia. specialize (Hb 2%nat ltac:(lia)). cbn [nth] in Hb. lra.
    - intros [-> | [-> | ->]]; cbn [nth]; (split; [lia |]; split; [lra |]); intros j Hj; destruct j as [|[|j]]; try lia; cbn [nth]; lra. }
  assert (Pm : Permutation.Permutation idx [0%nat; 2%nat]).
  { apply Permutation.NoDup_Permutation; [exact Nd | constructor; [cbn; lia | constructor; [intros [] | constructor]] |].
    intros i. rewrite Hi, C. cbn [In]. lia. }
  destruct x as [a |]; [| subst idx; apply Permutation.Permutation_nil in Pm; discriminate].
  destruct Hx as [_ Hx]. f_equal.
  assert (E : rsum (map (fun i => nth i [1; 2; 3; 4] 0) idx) = rsum (map (fun i => nth i [1; 2; 3; 4] 0) [0%nat; 2%nat])).
  { generalize (Permutation.Permutation_map (fun i => nth i [1; 2; 3; 4] 0) Pm). generalize (map (fun i => nth i [1; 2; 3; 4] 0) [0%nat; 2%nat]). generalize (map (fun i => nth i [1; 2; 3; 4] 0) idx). clear.
    intros l l' H. induction H; cbn; unfold rsum in *; lra. }
  rewrite E, (Permutation.Permutation_length Pm) in Hx. cbn in Hx. lra.
Qed.
