(** Specification vocabulary for sums of data and for the components of vector data. *)
From Verif Require Import M_Base M_Lib M_Options M_Select M_Diag M_Solve M_Recon S_Dict S_Options S_Basis S_Order S_Select S_Fit S_Ellipse S_Slv S_Recon S_Model.
Open Scope R_scope.

(** the same times; at each of them the third value is the sum of the first two *)
Definition summed (sa sb sc : list (R * C)) : Prop :=
  map fst sa = map fst sc /\ map fst sb = map fst sc /\
  map snd sc = map (fun p => Cplus (fst p) (snd p)) (combine (map snd sa) (map snd sb)).

(** row rc carries the sum of the rotary components of rows ra and rb *)
Definition row_sum (ra rb rc : crow) : Prop :=
  exists p q p' q', rotary ra = Some (p, q) /\ rotary rb = Some (p', q') /\ rotary rc = Some (Cplus p p', Cplus q q').

(** sum of values that may be undefined *)
Definition xplus (a b : xr) : xr := match a, b with Fin x, Fin y => Fin (x + y) | _, _ => NaN end.

(** the result c is the sum of the results a and b: constituent by constituent, mean, trend, and reconstruction at any time *)
Definition sum_of (a b c : coef) : Prop :=
  (forall ra rb rc, In ra (rows a) -> In rb (rows b) -> In rc (rows c) -> w_name ra = w_name rc -> w_name rb = w_name rc -> row_sum ra rb rc) /\
  (forall z z', mean_is a z -> mean_is b z' -> mean_is c (Cplus z z')) /\
  (o_notrend (c_opt c) = false -> forall z z', slope_is a z -> slope_is b z' -> slope_is c (Cplus z z')) /\
  (forall x, recon_u c x = xplus (recon_u a x) (recon_u b x) /\
     (o_twodim (c_opt c) = true -> recon_v c x = xplus (recon_v a x) (recon_v b x))).

(** the eastward (northward) samples of vector samples *)
Definition east (sm : list (R * C)) : list (R * C) := map (fun x => (fst x, RtoC (fst (snd x)))) sm.
Definition north (sm : list (R * C)) : list (R * C) := map (fun x => (fst x, RtoC (snd (snd x)))) sm.

(** the ellipse of row r is traced by the oscillations of rows ru (eastward) and rv (northward) *)
Definition traced_by (r ru rv : crow) : Prop :=
  exists maj mi th g A ga A' gb,
    w_Lsmaj r = Some (Some maj) /\ w_Lsmin r = Some (Some mi) /\ w_theta r = Some (Some th) /\ w_g r = Some g /\
    w_A ru = Some (Some A) /\ w_g ru = Some ga /\ w_A rv = Some (Some A') /\ w_g rv = Some gb /\
    forall f phi, ellipse_u f phi maj mi th g = scalar_tide f phi A ga /\ ellipse_v f phi maj mi th g = scalar_tide f phi A' gb.
