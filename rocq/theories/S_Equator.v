(** Specification vocabulary for the equator. *)
From Verif Require Import M_Base M_Tables S_Tables S_Harm.

(** constituent number k has no satellite with the diurnal latitude factor (which divides by the sine of the latitude), and neither have
    the constituents of which it is made *)
Definition calm (k : nat) : Prop :=
  (is_primary k /\ ~ diurnal_satellite k) \/ (is_shallow k /\ forall r, In r (rows_of k) -> ~ diurnal_satellite (row_parent r)).
(** the constituents of the table for which that fails *)
Definition restless : list string :=
  ["ALP1"; "2Q1"; "SIG1"; "Q1"; "RHO1"; "O1"; "TAU1"; "NO1"; "P1"; "K1"; "THE1"; "J1"; "2PO1"; "SO1"; "OO1"; "UPS1"; "O2"; "OP2"; "NO3"; "MO3"; "NK3";
   "SO3"; "MK3"; "SP3"; "SK3"; "MNO5"; "2MO5"; "3MP5"; "MNK5"; "2MP5"; "2MK5"; "MSK5"; "3KM5"; "2SK5"; "ST14"; "ST15"; "ST16"; "3MK7"; "ST17"; "ST25";
   "ST26"; "4MK9"; "ST27"; "ST33"]%string.
