(** Specification of the nodal (satellite) corrections and of the complete basis functions, from the published tables
    and the unwrapped astronomical variables. *)
From Coq Require Import QArith Qreals.
From Coquelicot Require Import Coquelicot.
From Verif Require Import M_Base M_Tables M_Harmonics S_Tables S_Harm.
Open Scope R_scope.

(** the unit complex number at x cycles *)
Definition turn (x : R) : C := (cos (2 * PI * x), sin (2 * PI * x)).
Definition csum (l : list C) : C := fold_right Cplus (RtoC 0) l.
Definition cprod (l : list C) : C := fold_right Cmult (RtoC 1) l.

(** latitude used: at least five degrees from the equator *)
Definition nodal_latitude (lat : R) : R :=
  if Rlt_dec (Rabs lat) 5 then (if Rlt_dec 0 lat then 5 else -5) else lat.
(** latitude dependence of a satellite: class 1 (diurnal), class 2 (semidiurnal), otherwise none *)
Definition latitude_factor (lat : R) (class : nat) : R :=
  let s := sin (nodal_latitude lat * PI / 180) in
  match class with
  | 1%nat => 0.36309 * (1 - 5 * s ^ 2) / s
  | 2%nat => 2.59808 * s
  | _ => 1
  end.

(** the satellites of constituent k, as rows of the satellite table *)
Definition satellites (k : nat) : list nat :=
  filter (fun j => Nat.eqb (nth j sat_iconst 0%nat) (S k)) (seq 0 (length sat_iconst)).
(** phase of satellite j relative to its constituent, in cycles: multiples of lunar perigee, node and perihelion *)
Definition satellite_phase (j : nat) (jd : R) : R :=
  let d := nth j sat_deldood [] in
  IZR (nth 0 d 0%Z) * perigee jd + IZR (nth 1 d 0%Z) * node jd + IZR (nth 2 d 0%Z) * perihelion jd + Q2R (nth j sat_phcorr 0%Q).
Definition satellite_term (lat : R) (j : nat) (jd : R) : C :=
  Cmult (RtoC (Q2R (nth j sat_amprat 0%Q) * latitude_factor lat (nth j sat_ilatfac 0%nat))) (turn (satellite_phase j jd)).

(** complex nodal correction of a primary constituent: 1 + the sum of its satellites *)
Definition nodal_primary (lat jd : R) (k : nat) : C :=
  Cplus (RtoC 1) (csum (map (fun j => satellite_term lat j jd) (satellites k))).

(** a complex number of modulus r at x cycles, -1/2 < x <= 1/2 *)
Definition polar_form (z : C) (r x : R) : Prop :=
  0 <= r /\ - (1 / 2) < x <= 1 / 2 /\ z = Cmult (RtoC r) (turn x).
(** r to the power a, for r >= 0 and a > 0 *)
Definition power (r a : R) : R := if Rlt_dec 0 r then exp (a * ln r) else 0.

Definition rprod (l : list R) : R := fold_right Rmult 1 l.

(** integer multipliers: z^n, and the conjugate's power for negative n *)
Definition cpow (z : C) (n : Z) : C :=
  cprod (repeat (if Z.ltb n 0 then Cconj z else z) (Z.abs_nat n)).
Definition row_mult (r : nat) : Z := Qnum (nth r shallow_coef 0%Q).
(** complex nodal correction of any constituent other than M7 *)
Definition nodal (lat jd : R) (k : nat) : C :=
  match nth k const_ishallow None with
  | None => nodal_primary lat jd k
  | Some _ => cprod (map (fun r => cpow (nodal_primary lat jd (row_parent r)) (row_mult r)) (rows_of k))
  end.

(** basis function of constituent k at time x: nodal correction (none, at the reference time, or at x) times the
    unit vector at the astronomical argument (from the reference time, linearised, or exact) *)
Definition tidal_basis (g : ngflgs) (tref lat x : R) (k : nat) : C :=
  Cmult (if NodsatNone g then RtoC 1 else nodal lat (if NodsatLint g then tref else x) k)
        (turn (if GwchNone g then (x - tref) * Derive (arg k) tref
               else if GwchLint g then arg k tref + (x - tref) * Derive (arg k) tref
               else arg k x)).

(** ellipse motion u + i v driven by the rotating vector w: semi-axes a and b, orientation th (degrees) *)
Definition rotary (a b th : R) (w : C) : C :=
  Cmult (turn (th / 360)) (Cplus (Cmult (RtoC ((a + b) / 2)) w) (Cmult (RtoC ((a - b) / 2)) (Cconj w))).
