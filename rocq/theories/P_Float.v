(** C34: range of phases and orientations in binary64. *)
From Coq Require Import Reals ZArith Lra.
From Flocq Require Import Core.
From Verif Require Import M_Float S_Float L_Float.
Open Scope R_scope.

(** Phases and orientations lie in the closed ranges, whatever the coefficients and the library's arctan2. *)
Theorem C34_scalar_range : forall at2 X Y, 0 <= g_scalar64 at2 X Y <= 360.
Proof. exact g_scalar_range. Qed.
Print Assumptions C34_scalar_range.
Theorem C34_vector_range : forall at2 Xu Yu Xv Yv,
  0 <= fst (angles_vector64 at2 Xu Yu Xv Yv) <= 180 /\ 0 <= snd (angles_vector64 at2 Xu Yu Xv Yv) <= 360.
Proof. exact vector_range. Qed.
Print Assumptions C34_vector_range.
(** the remainder is again a binary64 value, and fmod, its only unrounded step, is exactly representable *)
Theorem C34_representable : forall x b, 0 < b -> is64 x -> is64 b -> is64 (fmod x b) /\ is64 (remainder64 x b).
Proof. exact (fun x b Hb Hx Hf => conj (fmod_is64 x b Hb Hx Hf) (remainder_is64 x b Hb Hx Hf)). Qed.
Print Assumptions C34_representable.

(** Rounding moves the angle by at most 2^-45 (2^-46) degrees from its exact reduction. *)
Theorem C34_accuracy : forall x y, (reduced x 360 y -> Rabs (remainder64 x 360 - y) <= bpow radix2 (-45)) /\
  (reduced x 180 y -> Rabs (remainder64 x 180 - y) <= bpow radix2 (-46)).
Proof. exact (fun x y => conj (error_360 x y) (error_180 x y)). Qed.
Print Assumptions C34_accuracy.
Example C34_accuracy_applies : reduced (-90) 360 270.
Proof. split; [lra | exists (-1)%Z; lra]. Qed.

(** The upper end is returned exactly for negative angles at most 2^-45 (2^-46) below a multiple of the period. *)
Theorem C34_upper_end : forall x,
  (remainder64 x 360 = 360 <-> x < 0 /\ exists n : Z, 0 < IZR n * 360 - x <= bpow radix2 (-45)) /\
  (remainder64 x 180 = 180 <-> x < 0 /\ exists n : Z, 0 < IZR n * 180 - x <= bpow radix2 (-46)).
Proof. exact (fun x => conj (full_360 x) (full_180 x)). Qed.
Print Assumptions C34_upper_end.

(** Half-open ranges are violated: scalar data with cosine coefficient 1 and sine coefficient -2^-60 have g = 360 ... *)
Theorem C34_half_open_refuted : forall at2, arctan2_rough at2 ->
  exists X Y, is64 X /\ is64 Y /\ ~ (0 <= g_scalar64 at2 X Y < 360).
Proof. exact scalar_not_below. Qed.
Print Assumptions C34_half_open_refuted.
(** ... (a correctly rounded arctangent is such a function) *)
Example C34_arctan2 : arctan2_rough (fun y x => fl (atan (y / x))).
Proof. exact rough_example. Qed.
(** ... and so are those of the vector formulas. *)
Theorem C34_vector_half_open_refuted :
  (exists ep em, is64 ep /\ is64 em /\ theta64 ep em = 180) /\
  (exists ep em, is64 ep /\ is64 em /\ theta64 ep em = 0 /\ g_vector64 ep em = 360).
Proof. exact (conj (ex_intro _ _ (ex_intro _ _ theta_180)) (ex_intro _ _ (ex_intro _ _ g_vector_360))). Qed.
Print Assumptions C34_vector_half_open_refuted.
