(** Specification of current ellipses, independent of utide/ellipse_params.py: a velocity that varies
    with the phase w of a constituent is described by the cosine/sine coefficients of its two
    components, or by an ellipse. *)
From Verif Require Import M_Base S_Order.
Open Scope R_scope.

(** degrees to radians *)
Definition rad (d : R) : R := d * PI / 180.

(** a component with cosine coefficient X and sine coefficient Y at phase w (radians) *)
Definition component (X Y w : R) : R := X * cos w + Y * sin w.

(** speed at phase w *)
Definition speed (Xu Yu Xv Yv w : R) : R :=
  sqrt (component Xu Yu w ^ 2 + component Xv Yv w ^ 2).

(** Eastward and northward velocity on an ellipse: the vector (maj cos(w-g), mi sin(w-g)) in the frame
    of the axes, turned counter-clockwise by th.  Angles in degrees, w in radians. *)
Definition orbit_u (maj mi th g w : R) : R :=
  maj * cos (w - rad g) * cos (rad th) - mi * sin (w - rad g) * sin (rad th).
Definition orbit_v (maj mi th g w : R) : R :=
  maj * cos (w - rad g) * sin (rad th) + mi * sin (w - rad g) * cos (rad th).

(** the ellipse and the coefficients describe the same motion *)
Definition same_motion (maj mi th g Xu Yu Xv Yv : R) : Prop :=
  forall w, orbit_u maj mi th g w = component Xu Yu w /\
            orbit_v maj mi th g w = component Xv Yv w.

(** angles (degrees) that differ by a multiple of m *)
Definition same_angle (m a b : R) : Prop := exists k : Z, a = b + m * IZR k.

(** a circular motion or no motion at all: at every phase the velocity turned by a right angle, in one
    sense or the other, is the velocity a quarter cycle later *)
Definition circular (Xu Yu Xv Yv : R) : Prop :=
  (Yv = Xu /\ Yu = - Xv) \/ (Yv = - Xu /\ Yu = Xv).

(** components of a vector after turning it counter-clockwise by a degrees *)
Definition turn_u (a x y : R) : R := x * cos (rad a) - y * sin (rad a).
Definition turn_v (a x y : R) : R := x * sin (rad a) + y * cos (rad a).

(** ranges of what is reported for one constituent *)
Definition row_ranges (r : crow) : Prop :=
  (forall g, w_g r = Some g -> 0 <= g < 360) /\
  (forall a, w_A r = Some (Some a) -> 0 <= a) /\
  (forall a b, w_Lsmaj r = Some (Some a) -> w_Lsmin r = Some (Some b) -> Rabs b <= a) /\
  (forall th, w_theta r = Some (Some th) -> 0 <= th < 180).
