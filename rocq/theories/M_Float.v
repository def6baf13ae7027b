(** Binary64 rounding of the angle arithmetic of utide/ellipse_params.py.
    Values are reals representable in binary64 (53 bits, exponent at least -1074); overflow is not modelled (all
    values here are angles). Every operation rounds to nearest, ties to even. *)
From Coq Require Import Reals ZArith.
From Flocq Require Import Core.
Open Scope R_scope.

(** binary64 values and rounding *)
Definition fexp64 : Z -> Z := FLT_exp (-1074) 53.
Definition is64 (x : R) : Prop := generic_format radix2 fexp64 x.
Definition fl (x : R) : R := round radix2 fexp64 ZnearestE x.

(** C's fmod: exact remainder with the sign of the dividend (FloatLemmas: representable, so no rounding) *)
Definition fmod (x b : R) : R := x - b * IZR (Ztrunc (x / b)).
(** [x % b] for b > 0 (numpy npy_remainder): fmod, plus b (rounded) when negative *)
Definition remainder64 (x b : R) : R :=
  let m := fmod x b in if Rlt_dec m 0 then fl (m + b) else m.

(** [180 / pi] in binary64 and np.angle(z, deg=True) with the library's arctan2 *)
Definition deg64 : R := fl (180 / fl PI).
Definition angle_deg64 (arctan2 : R -> R -> R) (x y : R) : R := fl (arctan2 y x * deg64).

(** utide/ellipse_params.py:56-61: phase of scalar data, [ap = Xu - 1j * Yu] *)
Definition g_scalar64 (arctan2 : R -> R -> R) (Xu Yu : R) : R :=
  remainder64 (- angle_deg64 arctan2 Xu (- Yu)) 360.

(** utide/ellipse_params.py:64-65,70-75: orientation and phase of vector data *)
Definition theta64 (epsp epsm : R) : R := remainder64 (fl (fl (epsp + epsm) / 2)) 180.
Definition g_vector64 (epsp epsm : R) : R := remainder64 (fl (- epsp + theta64 epsp epsm)) 360.
Definition angles_vector64 (arctan2 : R -> R -> R) (Xu Yu Xv Yv : R) : R * R :=
  let epsp := angle_deg64 arctan2 (fl (fl (Xu + Yv) / 2)) (fl (fl (Xv - Yu) / 2)) in
  let epsm := angle_deg64 arctan2 (fl (fl (Xu - Yv) / 2)) (fl (fl (Xv + Yu) / 2)) in
  (theta64 epsp epsm, g_vector64 epsp epsm).
