(** Specification vocabulary for current data given in turned, mirrored or exchanged axes. *)
From Coq Require Import Permutation.
From Verif Require Import M_Base M_Lib M_Options M_Time M_Slvinit M_Select M_Diag M_Solve S_Order S_Ellipse S_Recon S_Model.
Open Scope R_scope.

(** the vector z turned by phi degrees, counterclockwise *)
Definition turn (phi : R) (z : C) : C :=
  (cos (rad phi) * fst z - sin (rad phi) * snd z, sin (rad phi) * fst z + cos (rad phi) * snd z).
(** the vector z mirrored at the axis with the direction phi / 2: phi = 90 exchanges the components, phi = 0 changes the
    sign of the second one, phi = 180 that of the first one *)
Definition mirror (phi : R) (z : C) : C :=
  (cos (rad phi) * fst z + sin (rad phi) * snd z, sin (rad phi) * fst z - cos (rad phi) * snd z).

(** sm' has the values of sm mapped by f, in any order *)
Definition values_by (f : C -> C) (sm sm' : list (R * C)) : Prop := Permutation (map (fun s => (fst s, f (snd s))) sm) sm'.

(** the ellipses of two rows: at each instant the second vector is the first one mapped by f *)
Definition same_motion (f : C -> C) (r r' : crow) : Prop :=
  exists a b th g a' b' th' g',
    w_Lsmaj r = Some (Some a) /\ w_Lsmin r = Some (Some b) /\ w_theta r = Some (Some th) /\ w_g r = Some g /\
    w_Lsmaj r' = Some (Some a') /\ w_Lsmin r' = Some (Some b') /\ w_theta r' = Some (Some th') /\ w_g r' = Some g' /\
    forall n phi, (ellipse_u n phi a' b' th' g', ellipse_v n phi a' b' th' g') = f (ellipse_u n phi a b th g, ellipse_v n phi a b th g).

(** axes sg * b and a, orientation to sg * th + phi up to half turns; each half turn changes the phase lag by 180 degrees *)
Definition ellipse_by (sg phi : R) (r r' : crow) : Prop :=
  exists a b th g a' b' th' g',
    w_Lsmaj r = Some (Some a) /\ w_Lsmin r = Some (Some b) /\ w_theta r = Some (Some th) /\ w_g r = Some g /\
    w_Lsmaj r' = Some (Some a') /\ w_Lsmin r' = Some (Some b') /\ w_theta r' = Some (Some th') /\ w_g r' = Some g' /\
    a' = a /\ b' = sg * b /\
    (Rabs b < a -> exists k : Z, th' = sg * th + phi + 180 * IZR k /\ same_angle 360 g' (g + 180 * IZR k)).

(** the result c' is the result c mapped by f: constituents, ellipses, mean, trend and reconstruction *)
Definition result_by (f : C -> C) (sg phi : R) (c c' : coef) : Prop :=
  Permutation (c_name c) (c_name c') /\
  (forall r r', In r (rows c) -> In r' (rows c') -> w_name r = w_name r' -> ellipse_by sg phi r r' /\ same_motion f r r') /\
  (forall z, mean_is c z -> mean_is c' (f z)) /\
  (o_notrend (c_opt c) = false -> forall z, slope_is c z -> slope_is c' (f z)) /\
  (forall x z, yields c x z <-> yields c' x (f z)).
