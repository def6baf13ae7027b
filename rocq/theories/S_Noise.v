(** Specification of the noise level attributed to a constituent. *)
From Verif Require Import M_Base S_Period.
Open Scope R_scope.

Definition increasing (t : list R) : Prop := forall i, (S i < length t)%nat -> nth i t 0 < nth (S i) t 0.

(** y is the value at x of the function through the samples (t, e): linear between them, constant beyond them *)
Definition read_at (t e : list R) (x y : R) : Prop :=
  (x <= hd 0 t -> y = hd 0 e) /\ (last t 0 <= x -> y = last e 0) /\
  forall k, (S k < length t)%nat -> nth k t 0 <= x <= nth (S k) t 0 ->
    y = nth k e 0 + (nth (S k) e 0 - nth k e 0) * ((x - nth k t 0) / (nth (S k) t 0 - nth k t 0)).

(** the residual series whose spectrum is taken: as it is, or - evenly spaced record with samples missing - read at all times *)
Definition residual_series (equi : bool) (tin t e times u : list R) : Prop :=
  if equi then times = tin /\ (if Nat.ltb (length t) (length tin) then Forall2 (read_at t e) tin u else u = e)
  else times = t /\ u = e.

(** power in one frequency step of a record of T days, from a spectral density per cycle per hour *)
Definition power_of (T : R) (level : option R) : xr := match level with Some x => Fin (x / (24 * T)) | None => NaN end.

(** x is the noise level at frequency f: that of the band that contains f, 0 outside the bands *)
Definition noise_at (T : R) (levels : list (option R)) (f : R) (x : xr) : Prop :=
  (forall b, (b < 9)%nat -> fst (nth b tidal_bands (0, 0)) <= f <= snd (nth b tidal_bands (0, 0)) -> x = power_of T (nth b levels None)) /\
  ((forall b, (b < 9)%nat -> ~ (fst (nth b tidal_bands (0, 0)) <= f <= snd (nth b tidal_bands (0, 0)))) -> x = Fin 0).

(** record length of n evenly spaced times, last sampling interval included: n times the mean step *)
Definition effective_length (t : list R) : R := (last t 0 - hd 0 t) / INR (length t - 1) * INR (length t).

(** levels of the nine bands in the windowed spectrum of the series x, without the bins nearest to the frequencies *)
Definition noise_spectrum (times x frqs : list R) (levels : list (option R)) : Prop :=
  let e := even_part x in
  let dt := 24 * (nth 1 times 0 - nth 0 times 0) in
  let grid := fft_grid (length e) dt in
  exists near, Forall2 (nearest_bin grid) frqs near /\
    band_levels tidal_bands (co_spectra e e (hann_window (length e)) (1 / dt)) grid near levels.
(** the same for the cross-spectrum of two series *)
Definition cross_noise_spectrum (times x y frqs : list R) (levels : list (option R)) : Prop :=
  let e := even_part x in
  let dt := 24 * (nth 1 times 0 - nth 0 times 0) in
  let grid := fft_grid (length e) dt in
  exists near, Forall2 (nearest_bin grid) frqs near /\
    band_levels tidal_bands (co_spectra e (even_part y) (hann_window (length e)) (1 / dt)) grid near levels.
