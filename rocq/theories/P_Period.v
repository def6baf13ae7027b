(** C66 (band averages), C67 (power spectra), C68 (Lomb frequencies). *)
From Coq Require Import Lia Lra.
From Verif Require Import M_Base M_Lib M_Slvinit M_Period S_Conf S_Period L_Base L_Period L_Period2 L_Period3 L_Period4 L_Period5 L_Period6 L_Period7 L_Period8 L_Period9 L_LombEx.
Open Scope R_scope.

(** ** C66 *)
(** Whatever the constituent frequencies, averaging succeeds; one bin nearest to each constituent is left out and
    every band gets the mean of the bins that count for it and are not left out, NaN when there is none. *)
Theorem C66_band_averages : forall P freq cfreq bands, freq <> [] -> non_decreasing freq -> length P = length freq ->
  exists near levels, Forall2 (nearest_bin freq) cfreq near /\ fbndavg P freq cfreq bands = Ok levels /\ band_levels bands P freq near levels.
Proof. exact fbndavg_spec. Qed.
Print Assumptions C66_band_averages.
(** grid 0.1, 0.2, 0.3, 0.4 with powers 1 .. 4, a constituent at 0.21 and the band 0.05-0.25: bins 0 and 2 count *)
Example C66_example : fbndavg [1; 2; 3; 4] [0.1; 0.2; 0.3; 0.4] [0.21] [(0.05, 0.25)] = Ok [Some 2].
Proof. exact fbndavg_example. Qed.

(** Every level lies between the least and the largest power that counts. *)
Theorem C66_between : forall P freq cfreq bands levels, freq <> [] -> non_decreasing freq -> length P = length freq ->
  fbndavg P freq cfreq bands = Ok levels ->
  exists near, Forall2 (nearest_bin freq) cfreq near /\
  Forall2 (fun b x => forall m M, (forall i, counts freq (fst b) (snd b) i -> ~ In i near -> m <= nth i P 0 <= M) ->
    match x with Some a => m <= a <= M | None => forall i, counts freq (fst b) (snd b) i -> In i near end) bands levels.
Proof. exact fbndavg_between. Qed.
Print Assumptions C66_between.

(** An empty frequency grid is a ValueError, whatever the rest. *)
Theorem C66_empty_grid : forall P cfreq bands, fbndavg P [] cfreq bands = Err ValueError.
Proof. exact fbndavg_empty. Qed.
Print Assumptions C66_empty_grid.

(** Evenly spaced residual: the noise levels are the band means of the windowed spectra on the FFT grid. *)
Theorem C66_even_residual : forall L t eu ev cfrq, length eu = length t -> (forall v, ev = Some v -> length v = length t) ->
  (2 <= length t)%nat -> nth 0 t 0 < nth 1 t 0 ->
  let u := even_part eu in let w := hann_window (length u) in let dt := 24 * (nth 1 t 0 - nth 0 t 0) in
  let grid := fft_grid (length u) dt in
  exists near p, Forall2 (nearest_bin grid) cfrq near /\ band_psd L t eu ev cfrq true = Ok p /\
    band_levels tidal_bands (co_spectra u u w (1 / dt)) grid near (b_Puu p) /\
    match ev with
    | None => b_Pvv p = None /\ b_Puv p = None
    | Some v => exists q r, b_Pvv p = Some q /\ b_Puv p = Some r /\
        band_levels tidal_bands (co_spectra (even_part v) (even_part v) w (1 / dt)) grid near q /\
        band_levels tidal_bands (co_spectra u (even_part v) w (1 / dt)) grid near r
    end.
Proof. exact band_even'. Qed.
Print Assumptions C66_even_residual.
Example C66_even_residual_applies : length [5; 1; 4; 1; 3] = length [0; 1/24; 2/24; 3/24; 4/24] /\
  (2 <= length [0; 1/24; 2/24; 3/24; 4/24])%nat /\ nth 0 [0; 1/24; 2/24; 3/24; 4/24] 0 < nth 1 [0; 1/24; 2/24; 3/24; 4/24] 0 /\
  even_part [5; 1; 4; 1; 3] = [5; 1; 4; 1].
Proof. cbn. repeat split; try lia; lra. Qed.

(** Unevenly spaced residual: the same with the Lomb-Scargle spectra on the Lomb grid (values: C67_uneven_values;
    frequencies: C68). With an empty Lomb grid the call fails. *)
Theorem C66_uneven_residual : forall L t eu ev cfrq, lomb_contract L -> length eu = length t -> (forall v, ev = Some v -> length v = length t) ->
  let th := map (fun x => x * 24) (even_part t) in
  let grid := lomb_freqs th tidal_bands 500 in
  (2 <= length t)%nat -> hd 0 th < last th 0 ->
  let spectra := psd_lomb L th (even_part eu) (option_map even_part ev) (hann_window (length th)) grid in
  (grid = [] -> band_psd L t eu ev cfrq false = Err ValueError) /\
  (grid <> [] ->
   exists near p, Forall2 (nearest_bin grid) cfrq near /\ band_psd L t eu ev cfrq false = Ok p /\
    band_levels tidal_bands (fst spectra) grid near (b_Puu p) /\
    match snd spectra with
    | None => ev = None /\ b_Pvv p = None /\ b_Puv p = None
    | Some (Pv, Puv) => ev <> None /\ exists q r, b_Pvv p = Some q /\ b_Puv p = Some r /\
        band_levels tidal_bands Pv grid near q /\ band_levels tidal_bands Puv grid near r
    end).
Proof. exact band_uneven'. Qed.
Print Assumptions C66_uneven_residual.

(** Two or three unevenly spaced samples leave no frequency: ValueError. *)
Theorem C66_too_few_uneven : forall L t eu ev cfrq, (length t = 2 \/ length t = 3)%nat -> band_psd L t eu ev cfrq false = Err ValueError.
Proof. exact band_too_few. Qed.
Print Assumptions C66_too_few_uneven.

(** ** C67 *)
(** The auto-spectrum of the program is the one-sided windowed discrete Fourier spectrum. *)
Theorem C67_values : forall e w fs k, length w = length e -> (k <= length e / 2)%nat -> 0 < fs -> 0 < window_energy w ->
  nth k (psd e w fs) 0 = sides (length e) k * (dft_cos e w k ^ 2 + dft_sin e w k ^ 2) / (fs * window_energy w).
Proof. exact psd_val. Qed.
Print Assumptions C67_values.
Theorem C67_cross_values : forall u v w fs k, length w = length u -> length v = length u -> (k <= length u / 2)%nat -> 0 < fs -> 0 < window_energy w ->
  nth k (psd_cross u v w fs) 0 = sides (length u) k * (dft_cos u w k * dft_cos v w k + dft_sin u w k * dft_sin v w k) / (fs * window_energy w).
Proof. exact psd_cross_val. Qed.
Print Assumptions C67_cross_values.
Theorem C67_length : forall e w fs, length w = length e -> length (psd e w fs) = (length e / 2 + 1)%nat.
Proof. exact psd_len. Qed.
Print Assumptions C67_length.

Theorem C67_non_negative : forall e w fs, length w = length e -> 0 < fs -> 0 < window_energy w ->
  forall k, 0 <= nth k (psd e w fs) 0.
Proof. exact psd_nonneg. Qed.
Print Assumptions C67_non_negative.

(** Scaling the residual scales the spectrum by the square; adding a constant changes nothing. *)
Theorem C67_scaling : forall c d e w fs, e <> [] -> psd (map (fun x => c * x + d) e) w fs = map (Rmult (c ^ 2)) (psd e w fs).
Proof. exact psd_affine. Qed.
Print Assumptions C67_scaling.
Theorem C67_cross_scaling : forall c d c' d' u v w fs, u <> [] -> v <> [] ->
  psd_cross (map (fun x => c * x + d) u) (map (fun x => c' * x + d') v) w fs = map (Rmult (c * c')) (psd_cross u v w fs).
Proof. exact cross_affine. Qed.
Print Assumptions C67_cross_scaling.

(** Total power: sum of the spectrum times the frequency step = mean square of the windowed, demeaned residual
    over mean square of the window. *)
Theorem C67_total_power : forall e w fs, length w = length e -> Nat.Even (length e) -> (0 < length e)%nat -> 0 < fs -> 0 < window_energy w ->
  rsum (psd e w fs) * (fs / INR (length e)) = sum_over (length e) (fun j => tapered e w j ^ 2) / window_energy w.
Proof. exact psd_total. Qed.
Print Assumptions C67_total_power.
Theorem C67_total_cross_power : forall u v w fs, length w = length u -> length v = length u -> Nat.Even (length u) -> (0 < length u)%nat -> 0 < fs -> 0 < window_energy w ->
  rsum (psd_cross u v w fs) * (fs / INR (length u)) =
  sum_over (length u) (fun j => tapered u w j * tapered v w j) / window_energy w.
Proof. exact cross_total. Qed.
Print Assumptions C67_total_cross_power.
(** the Hann window of any record of at least two samples meets the hypotheses *)
Theorem C67_window : forall n, (2 <= n)%nat -> hann n = hann_window n /\ length (hann_window n) = n /\ 0 < window_energy (hann_window n).
Proof. exact hann_ok. Qed.
Print Assumptions C67_window.
Example C67_total_power_example : rsum (psd [3; 1] (hann 2) 1) * (1 / 2) = 1.
Proof. exact total_example. Qed.

(** The cross-spectrum is bounded by the auto-spectra. *)
Theorem C67_cross_bound : forall u v w fs k, length w = length u -> length v = length u -> 0 < fs -> 0 < window_energy w ->
  nth k (psd_cross u v w fs) 0 ^ 2 <= nth k (psd u w fs) 0 * nth k (psd v w fs) 0.
Proof. exact cross_bound. Qed.
Print Assumptions C67_cross_bound.

(** Noise levels of an evenly spaced residual: non-negative, cross level bounded by the auto levels. *)
Theorem C67_levels : forall L t eu ev cfrq p, length eu = length t -> (forall v, ev = Some v -> length v = length t) ->
  (2 <= length t)%nat -> nth 0 t 0 < nth 1 t 0 -> band_psd L t eu ev cfrq true = Ok p ->
  (forall x, In (Some x) (b_Puu p) -> 0 <= x) /\
  forall q r, b_Pvv p = Some q -> b_Puv p = Some r ->
    (forall x, In (Some x) q -> 0 <= x) /\
    forall k x y z, nth k (b_Puu p) None = Some x -> nth k q None = Some y -> nth k r None = Some z -> z ^ 2 <= x * y.
Proof. exact even_levels. Qed.
Print Assumptions C67_levels.
(** Scaling an evenly spaced residual scales its noise levels by the square. *)
Theorem C67_level_scaling : forall L t eu ev cfrq c d c' d' p, length eu = length t -> (forall v, ev = Some v -> length v = length t) ->
  band_psd L t eu ev cfrq true = Ok p ->
  band_psd L t (map (fun x => c * x + d) eu) (option_map (map (fun x => c' * x + d')) ev) cfrq true =
  Ok {| b_Puu := scale_levels (c ^ 2) (b_Puu p); b_Pvv := option_map (scale_levels (c' ^ 2)) (b_Pvv p); b_Puv := option_map (scale_levels (c * c')) (b_Puv p) |}.
Proof. exact band_scale. Qed.
Print Assumptions C67_level_scaling.

(** Unevenly spaced residual: Lomb-Scargle power of the demeaned residual tapered by the window stretched over the
    record, times twice the mean spacing times the number of samples over the sum of squares of the window. *)
Theorem C67_uneven_values : forall L t u ev freqs, lomb_contract L -> hd 0 t < last t 0 -> length u = length t -> (forall v, ev = Some v -> length v = length t) ->
  exists wt, window_at t (hann_window (length t)) wt /\ 0 < window_energy wt /\
  let c := 2 * ((last t 0 - hd 0 t) / INR (length t - 1)) * INR (length t) / window_energy wt in
  let r := psd_lomb L t u ev (hann_window (length t)) freqs in
  forall i tau, (i < length freqs)%nat -> let om := 2 * PI * nth i freqs 0 in resolved t om -> orthogonal_phase t om tau ->
  nth i (fst r) 0 = c * lomb_power t (taper_list u wt) (taper_list u wt) om tau /\
  match ev, snd r with
  | Some v, Some (Pv, Puv) => nth i Pv 0 = c * lomb_power t (taper_list v wt) (taper_list v wt) om tau
      /\ exists tau', orthogonal_phase t om tau' /\ nth i Puv 0 = c * lomb_power t (taper_list u wt) (taper_list v wt) om tau'
  | None, None => True
  | _, _ => False
  end.
Proof. exact lomb_values. Qed.
Print Assumptions C67_uneven_values.
(** a routine that meets the contract: the power does not depend on the phase tau and has a closed form *)
Example C67_lombscargle_example : exists L, lomb_contract L.
Proof.
  exists {| l_parse := fun _ => None; l_lstsq := fun _ _ _ => Err LinAlgError; l_pinv := fun X => Ok X; l_inv := fun M => Ok M;
    l_svd := fun M => Ok (M, map (fun _ => 0) M, M); l_eigvals := fun M => Ok (map (fun _ => RtoC 0) M); l_is_PD := fun _ => true; l_spacing := fun _ => 0;
    l_mvn := fun _ m _ n => Ok (repeat m n); l_lomb := fun t x f => map (power_at t x) f; l_argsort := fun l => seq 0 (length l) |}.
  now apply power_contract.
Qed.
(** Non-negative and bounded in the same way. *)
Theorem C67_uneven_bounds : forall L th eu ev grid, lomb_contract L -> hd 0 th < last th 0 -> length (even_part eu) = length th -> (forall v, ev = Some v -> length (even_part v) = length th) ->
  (forall f, In f grid -> resolved th (f * 2 * PI)) ->
  let spectra := psd_lomb L th (even_part eu) (option_map even_part ev) (hann_window (length th)) grid in
  (forall k, 0 <= nth k (fst spectra) 0) /\
  forall Pv Puv, snd spectra = Some (Pv, Puv) -> forall k, 0 <= nth k Pv 0 /\
     nth k Puv 0 ^ 2 <= nth k (fst spectra) 0 * nth k Pv 0.
Proof. exact uneven_values. Qed.
Print Assumptions C67_uneven_bounds.
(** The two methods agree: on evenly spaced times the Lomb-Scargle spectra equal the FFT spectra at every interior
    Fourier frequency. *)
Theorem C67_methods_agree : forall L n t0 dt u ev freqs, lomb_contract L -> 0 < dt -> (2 <= n)%nat -> Nat.Even n -> length u = n -> (forall v, ev = Some v -> length v = n) ->
  let t := map (fun j => t0 + INR j * dt) (seq 0 n) in
  let w := hann_window n in
  let r := psd_lomb L t u ev w freqs in
  forall i k, (i < length freqs)%nat -> (0 < k /\ 2 * k < n)%nat -> nth i freqs 0 = INR k / (INR n * dt) ->
  nth i (fst r) 0 = nth k (psd u w (1 / dt)) 0 /\
  match ev, snd r with
  | Some v, Some (Pv, Puv) => nth i Pv 0 = nth k (psd v w (1 / dt)) 0 /\ nth i Puv 0 = nth k (psd_cross u v w (1 / dt)) 0
  | None, None => True
  | _, _ => False
  end.
Proof. exact methods_agree. Qed.
Print Assumptions C67_methods_agree.
(** times every half hour, three cycles in eight samples: interior frequency *)
Example C67_methods_agree_applies : Nat.Even 8 /\ (0 < 3 /\ 2 * 3 < 8)%nat /\
  resolved (map (fun j => 7 + INR j * 0.5) (seq 0 8)) (INR 3 / (INR 8 * 0.5) * 2 * PI).
Proof. exact agree_example. Qed.

(** ** C68 *)
(** The Lomb grid is the bands' lists put together; each band's list is the Fourier frequencies that count for the band,
    or 500 (limit) equally spaced ones over their range when there are more. *)
Theorem C68_lomb_frequencies : forall t bands limit, (2 <= limit)%nat -> hd 0 t < last t 0 ->
  exists ls, lomb_freqs t bands limit = List.concat ls /\
    Forall2 (fun b l => band_freqs (fourier_grid t) limit (fst b) (snd b) l) bands ls.
Proof. exact lomb_spec. Qed.
Print Assumptions C68_lomb_frequencies.
(** At most limit per band, positive, not below the band, less than one Fourier step above it, non-decreasing. *)
Theorem C68_per_band : forall t bands limit, (2 <= limit)%nat -> hd 0 t < last t 0 ->
  exists ls, lomb_freqs t bands limit = List.concat ls /\
  Forall2 (fun b l => (length l <= limit)%nat /\ non_decreasing l /\
     forall f, In f l -> 0 < f /\ fst b <= f /\ (0 < snd b -> f < snd b + fourier t 1)) bands ls.
Proof. exact lomb_per_band. Qed.
Print Assumptions C68_per_band.
(** The whole grid used by solve is non-decreasing and has at most 9 * 500 frequencies, all positive. *)
Theorem C68_whole_grid : forall t, hd 0 t < last t 0 ->
  non_decreasing (lomb_freqs t tidal_bands 500) /\ (length (lomb_freqs t tidal_bands 500) <= 9 * 500)%nat /\
  forall f, In f (lomb_freqs t tidal_bands 500) -> 0 < f.
Proof. exact lomb_whole. Qed.
Print Assumptions C68_whole_grid.
(** 4 uneven samples have a single usable Fourier frequency, 3/28 *)
Example C68_example : lomb_freqs [0; 1; 3; 7] [(0.05, 0.2); (0.2, 0.3)] 500 = [3 / 28].
Proof. exact lomb_example. Qed.
(** The bands: *)
Theorem C68_bands : freq_bands = tidal_bands.
Proof. exact bands_eq. Qed.
Print Assumptions C68_bands.
