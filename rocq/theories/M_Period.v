(** utide/periodogram.py, and the interpolation helpers it needs. *)
From Verif Require Import M_Base M_Lib M_Slvinit.
Open Scope R_scope.

(** utide/periodogram.py:24-36 *)
Definition freq_bands : list (R * R) :=
  [(10 / 10^5, 417 / 10^5); (3192 / 10^5, 4859 / 10^5); (7218 / 10^5, 8884 / 10^5);
   (11243 / 10^5, 12910 / 10^5); (15269 / 10^5, 16936 / 10^5); (19295 / 10^5, 20961 / 10^5);
   (23320 / 10^5, 25100 / 10^5); (26000 / 10^5, 29000 / 10^5); (30000 / 10^5, 50000 / 10^5)].

(** [np.searchsorted(freq, f)] (side left) for a non-decreasing array: number of elements < f. *)
Definition searchsorted (freq : list R) (f : R) : nat :=
  length (filter (fun x => if Rlt_dec x f then true else false) freq).

(** [l[i0:i1]] *)
Definition slice {A} (l : list A) (i0 i1 : nat) : list A := firstn (i1 - i0) (skipn i0 l).

(** [np.interp(x, xp, fp)] for increasing xp, constant outside; empty xp is ValueError (checked by
    the callers). *)
Fixpoint interp_aux (x : R) (xp fp : list R) : R :=
  match xp, fp with
  | a :: ((b :: _) as xp'), p :: ((q :: _) as fp') =>
      if Rlt_dec x b then (q - p) / (b - a) * (x - a) + p else interp_aux x xp' fp'
  | _, p :: _ => p
  | _, [] => 0
  end.
Definition interp (x : R) (xp fp : list R) : R :=
  match xp, fp with
  | a :: _, p :: _ => if Rlt_dec x a then p else interp_aux x xp fp
  | _, _ => 0
  end.

(** [np.round(x).astype(int)]: half to even *)
Definition rint (x : R) : Z :=
  let f := Int_part x in
  let d := x - IZR f in
  if Rlt_dec d (/ 2) then f
  else if Rlt_dec (/ 2) d then (f + 1)%Z
  else if Z.even f then f else (f + 1)%Z.

(** utide/periodogram.py:74-77: mask the bins nearest to the constituent frequencies *)
Definition i_constit (freq : list R) (c : R) : nat :=
  let idx := map INR (seq 0 (length freq)) in
  Z.to_nat (Z.min (Z.max 0 (rint (interp c freq idx))) (Z.of_nat (length freq))).
Definition mask_bin (P : list (option R)) (i : nat) : res (list (option R)) :=
  if Nat.ltb i (length P) then Ok (list_set P i None) else Err IndexError.
Fixpoint mask_bins (P : list (option R)) (l : list nat) : res (list (option R)) :=
  match l with [] => Ok P | i :: l' => do P <- mask_bin P i; mask_bins P l' end.

(** [P[inband].mean()], NaN (None) when nothing is left *)
Definition masked_mean (l : list (option R)) : option R :=
  match somes l with [] => None | s => Some (mean s) end.

(** utide/periodogram.py:39-91 (fbndavg); result per band, None = NaN *)
Definition fbndavg (P freq cfreq : list R) (fbands : list (R * R)) : res (list (option R)) :=
  let nfreq := length freq in
  match freq with
  | [] => Err ValueError      (* np.interp on an empty grid *)
  | _ =>
      do Pm <- mask_bins (map Some P) (map (i_constit freq) cfreq);
      Ok (map (fun b =>
                 let i0 := searchsorted freq (fst b) in
                 let i1 := Nat.min nfreq (searchsorted freq (snd b) + 1) in
                 masked_mean (slice Pm i0 i1)) fbands)
  end.

(** [np.linspace(a, b, n)], n >= 2 *)
Definition linspace (a b : R) (n : nat) : list R :=
  map (fun i => a + INR i * ((b - a) / INR (n - 1))) (seq 0 n).

(** utide/periodogram.py:94-126 (_lomb_freqs), with ofac = 1 as called by solve; t non-empty *)
Definition lomb_freqs (t : list R) (fbands : list (R * R)) (max_per_band : nat) : list R :=
  let n := length t in
  let delta_t := (last t 0 - hd 0 t) / INR (n - 1) in
  let reclen := INR n * delta_t in
  let freq := map (fun i => INR i / reclen) (seq 1 (n / 2 - 1)) in
  let nfreq := length freq in
  flat_map (fun b =>
              let i0 := searchsorted freq (fst b) in
              let i1 := Nat.min nfreq (searchsorted freq (snd b) + 1) in
              if Nat.ltb max_per_band (i1 - i0) then
                linspace (nth i0 freq 0) (nth (i1 - 1) freq 0) max_per_band
              else slice freq i0 i1) fbands.

(** [signal.windows.hann(n, sym=False)] for n <> 1 *)
Definition hann (n : nat) : list R :=
  map (fun k => / 2 - / 2 * cos (2 * PI * INR k / INR n)) (seq 0 n).

Definition demean (e : list R) : list R := let m := mean e in map (fun x => x - m) e.
Definition rmulv (a b : list R) : list R := map (fun p => fst p * snd p) (combine a b).

(** [np.fft.rfft]: bins 0..n/2 *)
Definition rfft (e : list R) : list C :=
  let n := length e in
  map (fun k => csum (map (fun p => Cmult (RtoC (snd p)) (cis (- (2 * PI * INR k * INR (fst p) / INR n))))
                          (enumerate e)))
      (seq 0 (n / 2 + 1)).

(** [cs[1:-1] *= 2] *)
Definition double_interior (cs : list R) : list R :=
  map (fun p => if (Nat.ltb 0 (fst p) && Nat.ltb (fst p) (length cs - 1))%bool then 2 * snd p else snd p)
      (enumerate cs).

Definition sumsq (l : list R) : R := rsum (map (fun x => x * x) l).

(** utide/periodogram.py:265-289 (_psd), real input *)
Definition psd (e window : list R) (fs : R) : list R :=
  let e := rmulv (demean e) window in
  let cs := map (fun z => Cmod z * Cmod z) (rfft e) in
  let psdnorm := (1 / fs) * (1 / sumsq window) in
  map (fun c => c * psdnorm) (double_interior cs).

(** utide/periodogram.py:265-289 (_psd), complex input: real part of the cross spectrum
    (only the real part is used, line 366) *)
Definition psd_cross (eu ev window : list R) (fs : R) : list R :=
  let eu := rmulv (demean eu) window in
  let ev := rmulv (demean ev) window in
  let cs := map (fun p => fst (Cmult (Cconj (fst p)) (snd p))) (combine (rfft eu) (rfft ev)) in
  let psdnorm := (1 / fs) * (1 / sumsq window) in
  map (fun c => c * psdnorm) (double_interior cs).

(** utide/periodogram.py:222-262 (_ls_cross), real part of the result at angular frequency fr *)
Definition ls_cross (t xre xim : list R) (fr : R) : R :=
  let tau := / 2 * angle (rsum (map (fun x => cos (2 * fr * x)) t), rsum (map (fun x => sin (2 * fr * x)) t)) in
  let c := map (fun x => cos (fr * x - tau)) t in
  let s := map (fun x => sin (fr * x - tau)) t in
  let a := 1 / sqrt (sumsq c) in
  let b := 1 / sqrt (sumsq s) in
  let f0 := cis tau in
  let tmpx := Cmult (a * rdot xre c, b * rdot xre s) f0 in
  let tmpy := Cmult (a * rdot xim c, - b * rdot xim s) (Cconj f0) in
  / 2 * fst (Cmult tmpx tmpy).

(** utide/periodogram.py:129-219 (_psd_lomb) with a window; t in hours.
    Result: Pxx and, for complex residuals, Pyy and Re Pxy, at the given frequencies. *)
Definition psd_lomb (L : lib) (t : list R) (xre : list R) (xim : option (list R)) (window freq : list R)
  : list R * option (list R * list R) :=
  let n := length t in
  let t_uniform := linspace (rmin t (hd 0 t)) (rmax t (hd 0 t)) n in
  let w := map (fun x => interp x t_uniform window) t in
  let dre := rmulv (demean xre) w in
  let delta_t := (last t 0 - hd 0 t) / INR (n - 1) in
  let fr := map (fun f => f * 2 * PI) freq in
  let psdnorm := 2 * delta_t * INR n / sumsq w in
  let scale := map (fun x => psdnorm * x) in
  (scale (l_lomb L t dre fr),
   option_map (fun xim =>
     let dim := rmulv (demean xim) w in
     (scale (l_lomb L t dim fr), scale (map (ls_cross t dre dim) fr))) xim).

Record bandpow := {
  b_Puu : list (option R);
  b_Pvv : option (list (option R));
  b_Puv : option (list (option R))
}.

(** [a[:-1]] when the length is odd; utide/periodogram.py:327-331 *)
Definition trim_even {A} (l : list A) : list A :=
  if Nat.odd (length l) then removelast l else l.

(** utide/periodogram.py:292-374 (band_psd); t in days, e = eu + i ev (ev = None: real).
    With fewer than two samples left the access t[1] (or t[-1]) is IndexError. *)
Definition band_psd (L : lib) (t eu : list R) (ev : option (list R)) (cfrq : list R) (equi : bool)
  : res bandpow :=
  let t := trim_even t in
  let eu := trim_even eu in
  let ev := option_map trim_even ev in
  let nt := length eu in
  let hn := hann nt in
  if Nat.ltb (length t) 2 then Err IndexError
  else
    let '(Puu1s, Pv, allfrq) :=
      if equi then
        let dt := 24 * (nth 1 t 0 - nth 0 t 0) in
        let fs := 1 / dt in
        (psd eu hn fs,
         option_map (fun ev => (psd ev hn fs, psd_cross eu ev hn fs)) ev,
         map (fun k => INR k / (INR nt * dt)) (seq 0 (nt / 2 + 1)))
      else
        let th := map (fun x => x * 24) t in
        let lfreq := lomb_freqs th freq_bands 500 in
        let '(p, q) := psd_lomb L th eu ev hn lfreq in
        (p, q, lfreq) in
    do Puu <- fbndavg Puu1s allfrq cfrq freq_bands;
    match Pv with
    | None => Ok {| b_Puu := Puu; b_Pvv := None; b_Puv := None |}
    | Some (Pvv1s, Puv1s) =>
        do Pvv <- fbndavg Pvv1s allfrq cfrq freq_bands;
        do Puv <- fbndavg Puv1s allfrq cfrq freq_bands;
        Ok {| b_Puu := Puu; b_Pvv := Some Pvv; b_Puv := Some Puv |}
    end.
