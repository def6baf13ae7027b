(** Specification vocabulary for the residual spectra: frequency grids, bands, means, window and total power. *)
From Verif Require Import M_Base M_Lib.
Open Scope R_scope.

(** values never decrease along the list *)
Definition non_decreasing (l : list R) : Prop :=
  forall i j, (i <= j < length l)%nat -> nth i l 0 <= nth j l 0.

(** bin i of the grid is as near to c as any other bin *)
Definition nearest_bin (freq : list R) (c : R) (i : nat) : Prop :=
  (i < length freq)%nat /\ forall j, (j < length freq)%nat -> Rabs (c - nth i freq 0) <= Rabs (c - nth j freq 0).

(** bin i counts for the band [lo, hi]: not below lo, and no earlier bin reaches hi (so the first bin at or
    above hi is included) *)
Definition counts (freq : list R) (lo hi : R) (i : nat) : Prop :=
  (i < length freq)%nat /\ lo <= nth i freq 0 /\ forall j, (j < i)%nat -> nth j freq 0 < hi.

(** level of a band: mean of P over the bins that count and are not left out; None when there is none *)
Definition band_mean (P freq : list R) (left_out : list nat) (lo hi : R) (x : option R) : Prop :=
  exists idx, NoDup idx /\ (forall i, In i idx <-> counts freq lo hi i /\ ~ In i left_out) /\
    match x with
    | None => idx = []
    | Some m => idx <> [] /\ m * INR (length idx) = rsum (map (fun i => nth i P 0) idx)
    end.

(** sums over indices *)
Definition sum_over (n : nat) (f : nat -> R) : R := rsum (map f (seq 0 n)).

(** mean of a series *)
Definition average (e : list R) : R := rsum e / INR (length e).
(** k-th value of the series with its mean removed, times the window *)
Definition tapered (e w : list R) (k : nat) : R := (nth k e 0 - average e) * nth k w 0.
(** sum of squares of the window *)
Definition window_energy (w : list R) : R := rsum (map (fun x => x ^ 2) w).

(** discrete Fourier transform of the tapered series: amplitudes of cosine and sine at k cycles per record *)
Definition dft_cos (e w : list R) (k : nat) : R :=
  sum_over (length e) (fun j => tapered e w j * cos (2 * PI * INR k * INR j / INR (length e))).
Definition dft_sin (e w : list R) (k : nat) : R :=
  sum_over (length e) (fun j => tapered e w j * sin (2 * PI * INR k * INR j / INR (length e))).
(** interior frequencies carry the power of the negative frequency too *)
Definition sides (n k : nat) : R := if (Nat.eqb k 0 || Nat.eqb k (n / 2))%bool then 1 else 2.

(** Fourier frequencies of a record of n samples with mean spacing (last - first) / (n - 1), without 0 and
    the Nyquist frequency *)
Definition fourier (t : list R) (j : nat) : R :=
  INR j * INR (length t - 1) / (INR (length t) * (last t 0 - hd 0 t)).

(** periodic Hann window *)
Definition hann_window (n : nat) : list R := map (fun k => sin (PI * INR k / INR n) ^ 2) (seq 0 n).
(** Fourier frequencies of n samples every dt hours, from 0 to the Nyquist frequency *)
Definition fft_grid (n : nat) (dt : R) : list R := map (fun k => INR k / (INR n * dt)) (seq 0 (n / 2 + 1)).
(** one-sided spectral density (co-spectrum of u and v) at k cycles per record *)
Definition co_spectrum (u v w : list R) (fs : R) (k : nat) : R :=
  sides (length u) k * (dft_cos u w k * dft_cos v w k + dft_sin u w k * dft_sin v w k) / (fs * window_energy w).
Definition co_spectra (u v w : list R) (fs : R) : list R := map (co_spectrum u v w fs) (seq 0 (length u / 2 + 1)).
(** the record without its last sample when the number of samples is odd *)
Definition even_part (l : list R) : list R := firstn (2 * (length l / 2)) l.

(** the Fourier frequencies without 0 and the Nyquist frequency *)
Definition fourier_grid (t : list R) : list R := map (fourier t) (seq 1 (length t / 2 - 1)).
(** n equally spaced values from a to b *)
Definition spaced (a b : R) (n : nat) (l : list R) : Prop :=
  length l = n /\ hd 0 l = a /\ last l 0 = b /\ forall i, (S i < n)%nat -> nth (S i) l 0 - nth i l 0 = (b - a) / INR (n - 1).
(** frequencies used for one band: the Fourier frequencies that count when there are at most limit of them,
    otherwise limit equally spaced ones over the same range *)
Definition band_freqs (grid : list R) (limit : nat) (lo hi : R) (l : list R) : Prop :=
  exists first count, (forall i, counts grid lo hi i <-> (first <= i < first + count)%nat) /\
    if Nat.leb count limit then l = map (fun i => nth i grid 0) (seq first count)
    else spaced (nth first grid 0) (nth (first + count - 1) grid 0) limit l.

(** ** Lomb-Scargle periodogram *)
(** sums over the samples *)
Definition at_times (t : list R) (f : R -> R) : R := rsum (map f t).
Definition with_data (t x : list R) (f : R -> R) : R := rsum (map (fun p => snd p * f (fst p)) (combine t x)).
(** tau makes cosine and sine of w*t - tau orthogonal at the sample times *)
Definition orthogonal_phase (t : list R) (w tau : R) : Prop := at_times t (fun x => sin (2 * (w * x - tau))) = 0.
(** neither the cosine nor the sine vanishes at all sample times *)
Definition resolved (t : list R) (w : R) : Prop := forall tau, orthogonal_phase t w tau ->
  at_times t (fun x => cos (w * x - tau) ^ 2) <> 0 /\ at_times t (fun x => sin (w * x - tau) ^ 2) <> 0.
(** normalised cross power of x and y at angular frequency w; with y = x the Lomb-Scargle power *)
Definition lomb_power (t x y : list R) (w tau : R) : R :=
  (with_data t x (fun s => cos (w * s - tau)) * with_data t y (fun s => cos (w * s - tau)) / at_times t (fun s => cos (w * s - tau) ^ 2) +
   with_data t x (fun s => sin (w * s - tau)) * with_data t y (fun s => sin (w * s - tau)) / at_times t (fun s => sin (w * s - tau) ^ 2)) / 2.
(** what scipy.signal.lombscargle returns: one value per angular frequency, the Lomb-Scargle power wherever it
    is defined *)
Definition lomb_contract (L : lib) : Prop := forall t x fr, length t = length x ->
  Forall2 (fun w p => forall tau, resolved t w -> orthogonal_phase t w tau -> p = lomb_power t x x w tau) fr (l_lomb L t x fr).

(** the nine frequency bands, cycles per hour *)
Definition tidal_bands : list (R * R) :=
  [(0.00010, 0.00417); (0.03192, 0.04859); (0.07218, 0.08884); (0.11243, 0.12910); (0.15269, 0.16936);
   (0.19295, 0.20961); (0.23320, 0.25100); (0.26000, 0.29000); (0.30000, 0.50000)].
(** levels of the bands, one per band *)
Definition band_levels (bands : list (R * R)) (P grid : list R) (left_out : list nat) (levels : list (option R)) : Prop :=
  Forall2 (fun b x => band_mean P grid left_out (fst b) (snd b) x) bands levels.
(** y is the value at x of the function that is linear between equally spaced knots from a to b with values w *)
Definition linear_between (a b : R) (w : list R) (x y : R) : Prop :=
  exists k, (S k < length w)%nat /\ let h := (b - a) / INR (length w - 1) in let g := a + INR k * h in
    g <= x <= g + h /\ y = nth k w 0 + (nth (S k) w 0 - nth k w 0) * ((x - g) / h).
Definition earliest (t : list R) (a : R) : Prop := In a t /\ forall x, In x t -> a <= x.
Definition latest (t : list R) (b : R) : Prop := In b t /\ forall x, In x t -> x <= b.
(** the window stretched over the record and read at the sample times *)
Definition window_at (t w wt : list R) : Prop :=
  exists a b, earliest t a /\ latest t b /\ Forall2 (linear_between a b w) t wt.
Definition taper_list (e w : list R) : list R := map (tapered e w) (seq 0 (length e)).
(** all values times c, NaN kept *)
Definition scale_levels (c : R) (l : list (option R)) : list (option R) := map (option_map (Rmult c)) l.
