(** Specification vocabulary for confidence intervals: error propagation, angles on a branch, variances,
    matrices. *)
From Coquelicot Require Import Coquelicot.
From Verif Require Import M_Base M_Lib M_Options M_Ellipse S_Order S_Ellipse S_Robust.
Open Scope R_scope.

(** ** First-order error propagation *)

(** a quantity that depends on the four coefficients, and its partial derivatives at a point *)
Definition partials (f : R -> R -> R -> R -> R) (Xu Yu Xv Yv : R) (d : R * R * R * R) : Prop :=
  let '(d1, d2, d3, d4) := d in
  is_derive (fun x => f x Yu Xv Yv) Xu d1 /\ is_derive (fun x => f Xu x Xv Yv) Yu d2 /\
  is_derive (fun x => f Xu Yu x Yv) Xv d3 /\ is_derive (fun x => f Xu Yu Xv x) Yv d4.

(** derivative of an angle that is reported modulo m: up to multiples of m it agrees near the point with a
    function that has this derivative *)
Definition turn_rate (m : R) (f : R -> R) (x d : R) : Prop :=
  exists phi : R -> R, is_derive phi x d /\ locally x (fun y => same_angle m (f y) (phi y)).
Definition turn_partials (m : R) (f : R -> R -> R -> R -> R) (Xu Yu Xv Yv : R) (d : R * R * R * R) : Prop :=
  let '(d1, d2, d3, d4) := d in
  turn_rate m (fun x => f x Yu Xv Yv) Xu d1 /\ turn_rate m (fun x => f Xu x Xv Yv) Yu d2 /\
  turn_rate m (fun x => f Xu Yu x Yv) Xv d3 /\ turn_rate m (fun x => f Xu Yu Xv x) Yv d4.

(** standard deviation of a quantity with partial derivatives d when the coefficients are uncorrelated
    with standard deviations s1..s4 *)
Definition propagated (d : R * R * R * R) (s1 s2 s3 s4 : R) : R :=
  let '(d1, d2, d3, d4) := d in
  sqrt (d1 ^ 2 * s1 ^ 2 + d2 ^ 2 * s2 ^ 2 + d3 ^ 2 * s3 ^ 2 + d4 ^ 2 * s4 ^ 2).

(** the reported ellipse parameters as functions of the coefficients *)
Definition maj_of Xu Yu Xv Yv := e_maj (cs2cep2 Xu Yu Xv Yv).
Definition min_of Xu Yu Xv Yv := e_min (cs2cep2 Xu Yu Xv Yv).
Definition theta_of Xu Yu Xv Yv := e_theta (cs2cep2 Xu Yu Xv Yv).
Definition g_of Xu Yu Xv Yv := e_g (cs2cep2 Xu Yu Xv Yv).
(** amplitude and phase of scalar data *)
Definition A_of X Y := e_maj (cs2cep1 X Y).
Definition g1_of X Y := e_g (cs2cep1 X Y).

(** ** Half-widths *)

(** not a number, infinite, or at least 0 *)
Definition not_negative (x : xr) : Prop := x = NaN \/ x = PInf \/ exists a, x = Fin a /\ 0 <= a.

Definition ci_not_negative (r : crow) : Prop :=
  (forall x, w_g_ci r = Some (Some x) -> not_negative x) /\
  (forall x, w_A_ci r = Some (Some x) -> not_negative x) /\
  (forall x, w_Lsmaj_ci r = Some (Some x) -> not_negative x) /\
  (forall x, w_Lsmin_ci r = Some (Some x) -> not_negative x) /\
  (forall x, w_theta_ci r = Some (Some x) -> not_negative x).

(** ** Columns of the basis: positive and negative frequency of the non-reference constituents, then of
    the reference constituents *)
Definition pos_column (nNR nR c : nat) : nat := if Nat.ltb c nNR then c else (nNR + c)%nat.
Definition neg_column (nNR nR c : nat) : nat := if Nat.ltb c nNR then (nNR + c)%nat else (nNR + nR + c)%nat.

(** ** Matrices as lists of rows *)
Definition entry_of (M : rmat) (i j : nat) : R := nth j (nth i M []) 0.
Definition square (n : nat) (M : rmat) : Prop := length M = n /\ Forall (fun r => length r = n) M.
Definition symmetric (n : nat) (M : rmat) : Prop :=
  forall i j, (i < n)%nat -> (j < n)%nat -> entry_of M i j = entry_of M j i.
(** the diagonal of A and zeros elsewhere *)
Definition diagonal_of (n : nat) (A M : rmat) : Prop :=
  square n M /\ forall i j, (i < n)%nat -> (j < n)%nat -> entry_of M i j = if Nat.eqb i j then entry_of A i i else 0.

(** the same options without an inference specification *)
Definition without_inference (o : optr) : optr :=
  {| o_twodim := o_twodim o; o_equi := o_equi o; o_conf_int := o_conf_int o; o_cnstit := o_cnstit o;
     o_notrend := o_notrend o; o_nodsatlint := o_nodsatlint o; o_nodsatnone := o_nodsatnone o;
     o_gwchlint := o_gwchlint o; o_gwchnone := o_gwchnone o; o_infer := None; o_rmin := o_rmin o;
     o_linci := o_linci o; o_white := o_white o; o_nrlzn := o_nrlzn o; o_nodiagn := o_nodiagn o;
     o_ordercnstit := o_ordercnstit o; o_method := o_method o; o_robust_kw := o_robust_kw o; o_epoch := o_epoch o |}.

(** ** Monte-Carlo samples *)
(** np.random.multivariate_normal returns n vectors of the length of the mean *)
Definition mvn_shape (L : lib) : Prop := forall c mean cov n smp, l_mvn L c mean cov n = Ok smp ->
  length smp = n /\ Forall (fun r => length r = length mean) smp.

(** 95 percent half-width from the median absolute deviation *)
Definition spread (l : list R) (x : R) : Prop :=
  exists m d, median_is l m /\ median_is (map (fun a => Rabs (a - m)) l) d /\ x = 1.96 * d / 0.6745.

(** angles of the samples on the branch (period ang) around the fitted value, which stands for the
    first sample *)
Definition on_branch (ang fitted : R) (samples l : list R) : Prop :=
  exists rest : list R, l = fitted :: rest /\
    Forall2 (fun a b => same_angle ang b a /\ fitted - ang / 2 <= b < fitted + ang / 2) (tl samples) rest.

(** ** Covariance matrices *)
(** sum of f 0 .. f (n-1) *)
Fixpoint nsum (n : nat) (f : nat -> R) : R := match n with O => 0 | S n => nsum n f + f n end.
(** symmetric positive semi-definite *)
Definition semidefinite (n : nat) (A : rmat) : Prop :=
  symmetric n A /\ forall x : nat -> R, 0 <= nsum n (fun i => nsum n (fun j => x i * entry_of A i j * x j)).
(** an exact singular value decomposition B = U diag(s) V of a square matrix *)
Definition delta (i j : nat) : R := if Nat.eqb i j then 1 else 0.
Definition decomposes (n : nat) (B U : rmat) (s : list R) (V : rmat) : Prop :=
  (forall i j, (i < n)%nat -> (j < n)%nat ->
     entry_of B i j = nsum n (fun k => entry_of U i k * nth k s 0 * entry_of V k j)) /\
  (forall k l, (k < n)%nat -> (l < n)%nat -> nsum n (fun i => entry_of U i k * entry_of U i l) = delta k l) /\
  (forall k l, (k < n)%nat -> (l < n)%nat -> nsum n (fun j => entry_of V k j * entry_of V l j) = delta k l).
Definition svd_exact (L : lib) (n : nat) : Prop :=
  forall B U s V, square n B -> l_svd L B = Ok (U, s, V) -> decomposes n B U s V /\ forall k, 0 <= nth k s 0.

(** ** Covariances of one constituent *)
Definition centry_of (M : cmat) (i j : nat) : C := nth j (nth i M []) (RtoC 0).
(** two pairs (covariance, pseudo-covariance) that have the same entries in the columns of constituent c *)
Definition own_columns_agree (nNR nR c : nat) (g h : cmat * cmat) : Prop :=
  forall i j, (i = pos_column nNR nR c \/ i = neg_column nNR nR c) -> (j = pos_column nNR nR c \/ j = neg_column nNR nR c) ->
    centry_of (fst g) i j = centry_of (fst h) i j /\ centry_of (snd g) i j = centry_of (snd h) i j.
