(** Specification of the astronomical arguments: smooth, without reduction to one cycle. *)
From Coq Require Import QArith Qreals.
From Verif Require Import M_Base M_Tables S_Tables.
Open Scope R_scope.

(** mean longitudes (in cycles) of the moon, the sun, the lunar perigee, the (negative of the) lunar
    node and the solar perigee at time jd (days, proleptic Gregorian; epoch 1899-12-31 12:00) *)
Definition poly (a b c e jd : R) : R :=
  let d := jd - 693595.5 in let D := d / 10000 in (a + b * d + c * D ^ 2 + e * D ^ 3) / 360.
Definition moon : R -> R := poly 270.434164 13.1763965268 (-0.0000850) 0.000000039.
Definition sun : R -> R := poly 279.696678 0.9856473354 0.00002267 0.
Definition perigee : R -> R := poly 334.329556 0.1114040803 (-0.0007739) (-0.00000026).
Definition node : R -> R := poly (-259.183275) 0.0529539222 (-0.0001557) (-0.000000050).
Definition perihelion : R -> R := poly 281.220844 0.0000470684 0.0000339 0.000000070.
(** local mean lunar time *)
Definition lunar_time (jd : R) : R := jd + sun jd - moon jd.

Definition astro_var (i : nat) : R -> R :=
  nth i [lunar_time; moon; sun; perigee; node; perihelion] (fun _ => 0).

(** argument of a primary constituent: its six Doodson numbers and its phase offset *)
Definition doodson_sum (d : list Z) (x : nat -> R) : R :=
  fold_right Rplus 0 (map (fun i => IZR (nth i d 0%Z) * x i) (seq 0 6)).
Definition arg_primary (k : nat) (jd : R) : R :=
  match nth k const_doodson None, nth k const_semi None with
  | Some d, Some s => doodson_sum d (fun i => astro_var i jd) + Q2R s
  | _, _ => 0
  end.
(** argument of any constituent: a shallow-water constituent combines the arguments of its parents *)
Definition arg (k : nat) (jd : R) : R :=
  match nth k const_ishallow None with
  | None => arg_primary k jd
  | Some _ => fold_right Rplus 0 (map (fun r => row_coef r * arg_primary (row_parent r) jd) (rows_of k))
  end.

Definition is_integer (x : R) : Prop := exists z, x = IZR z.

(** the nine noise bands, in cycles per hour (utide/periodogram.py:24-36) *)
Definition bands : list (R * R) :=
  [(0.0001, 0.00417); (0.03192, 0.04859); (0.07218, 0.08884); (0.11243, 0.12910); (0.15269, 0.16936);
   (0.19295, 0.20961); (0.23320, 0.25100); (0.26, 0.29); (0.30, 0.50)].
Definition in_band (b : R * R) (f : R) : Prop := fst b <= f <= snd b.

(** constituent number k has a satellite with the diurnal latitude factor *)
Definition diurnal_satellite (k : nat) : Prop :=
  exists j, nth_error sat_iconst j = Some (S k) /\ nth_error sat_ilatfac j = Some 1%nat.
