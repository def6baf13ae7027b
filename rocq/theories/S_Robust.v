(** Specification vocabulary for the robust fit. *)
From Coq Require Import String Sorted Permutation.
From Verif Require Import M_Base M_Lib M_Diag M_Solve S_Model.
Open Scope R_scope.

(** ** medians and scale *)
(** m is the median of the real numbers l *)
Definition median_is (l : list R) (m : R) : Prop :=
  exists s, Permutation l s /\ StronglySorted Rle s /\
    m = (nth ((length l - 1) / 2) s 0 + nth (length l / 2) s 0) / 2.

(** complex numbers are ordered by real part, then by imaginary part *)
Definition lex (a b : C) : Prop := fst a < fst b \/ (fst a = fst b /\ snd a <= snd b).
Definition cmedian_is (l : list C) (m : C) : Prop :=
  exists s, Permutation l s /\ StronglySorted lex s /\
    m = Cmult (RtoC (1 / 2)) (Cplus (nth ((length l - 1) / 2) s (RtoC 0)) (nth (length l / 2) s (RtoC 0))).

(** robust scale: median absolute deviation from the median, over 0.6745 *)
Definition scale_is (z : list C) (s : R) : Prop :=
  exists c d, cmedian_is z c /\ median_is (map (fun x => Cmod (Cminus x c)) z) d /\ s = d / 0.6745.

(** ** weights *)
Definition weight_formula (name : string) : option (R -> R) :=
  (if String.eqb name "bisquare" then Some (fun r => if Rlt_dec r 1 then (1 - r ^ 2) ^ 2 else 0)
   else if String.eqb name "cauchy" then Some (fun r => 1 / (1 + r ^ 2))
   else if String.eqb name "fair" then Some (fun r => 1 / (1 + r))
   else if String.eqb name "ols" then Some (fun _ => 1)
   else if String.eqb name "talwar" then Some (fun r => if Rlt_dec r 1 then 1 else 0)
   else if String.eqb name "welsch" then Some (fun r => exp (- r ^ 2))
   else None)%string.

Definition default_tuning (name : string) : option R :=
  (if String.eqb name "bisquare" then Some 4.685
   else if String.eqb name "cauchy" then Some 2.385
   else if String.eqb name "fair" then Some 1.4
   else if String.eqb name "ols" then Some 1
   else if String.eqb name "talwar" then Some 2.795
   else if String.eqb name "welsch" then Some 2.985
   else None)%string.
Definition tuning (name : string) (tune : option R) (t : R) : Prop :=
  match tune with Some x => t = x | None => default_tuning name = Some t end.

(** ** one weighted least-squares problem *)
Definition misfits (X : cmat) (y b : list C) : list C := csub y (cmatvec X b).
Definition weighted_ss (w : list R) (z : list C) : R :=
  rsum (map (fun p => (fst p) ^ 2 * (fst (snd p) ^ 2 + snd (snd p) ^ 2)) (combine w z)).

(** coefficients b minimise the sum of squared weighted misfits *)
Definition optimal (X : cmat) (y : list C) (w : list R) (b : list C) : Prop :=
  forall b', length b' = length b -> weighted_ss w (misfits X y b) <= weighted_ss w (misfits X y b').

(** one pass of the iteration: weights used, coefficients found *)
Record pass := { p_w : list R; p_b : list C }.
(** weighted mean of the squared weighted misfits *)
Definition mean_square (X : cmat) (y : list C) (s : pass) : R :=
  weighted_ss (p_w s) (misfits X y (p_b s)) / rsum (p_w s).
(** root mean square of the unweighted misfits *)
Definition rms_of (X : cmat) (y b : list C) : R := sqrt (norm2 (misfits X y b) / INR (length y)).

(** w are the weights belonging to coefficients b: the weight function of the misfit divided by
    tuning constant, scale and the leverage factor (where these are usable) *)
Definition reweighted (phi : R -> R) (t : R) (lev : list R) (X : cmat) (y b : list C) (w : list xr) : Prop :=
  t <> 0 -> Forall (fun h => h < 1) lev -> forall s, scale_is (misfits X y b) s -> 0 < s ->
  w = map (fun p => Fin (phi (Cmod (fst p) / (Rabs t * sqrt (1 - snd p) * s)))) (combine (misfits X y b) lev).

Definition consecutive {A} (R : A -> A -> Prop) (h : list A) : Prop :=
  forall a x y b, h = (a ++ x :: y :: b)%list -> R x y.

(** The passes of an iteratively reweighted least-squares run. *)
Record passes (phi : R -> R) (t : R) (lev : list R) (X : cmat) (y : list C) (h : list pass) : Prop := {
  ps_first : exists s r, h = s :: r /\ p_w s = map (fun _ => 1) y;
  ps_best : Forall (fun s => optimal X y (p_w s) (p_b s)) h;
  ps_weights : Forall (fun s => length (p_w s) = length y /\ Forall (fun w => 0 <= w <= 1) (p_w s) /\ 0 < rsum (p_w s)) h;
  ps_next : consecutive (fun s s' => reweighted phi t lev X y (p_b s) (map Fin (p_w s'))) h }.

(** the mean square decreases, by the fraction tol or more *)
Definition progress (X : cmat) (y : list C) (tol : R) (s s' : pass) : Prop :=
  mean_square X y s' <= mean_square X y s /\ tol * mean_square X y s <= mean_square X y s - mean_square X y s'.

(** The contract of numpy.linalg.lstsq(a, b, rcond), as far as the robust fit relies on it: one
    coefficient per column; they minimise the norm of b - a x; when a sum of squares is reported
    it is that of the answer and the answer is the only best one. *)
Definition lstsq_contract (L : lib) (rcond : pyval) : Prop :=
  forall B x m r k s, l_lstsq L B x rcond = Ok (m, r, k, s) ->
  (forall row, In row B -> length row = length m) /\
  (forall m', length m' = length m -> norm2 (csub (cmatvec B m) x) <= norm2 (csub (cmatvec B m') x)) /\
  (r = [] \/ (r = [norm2 (csub (cmatvec B m) x)] /\
     forall m', length m' = length m -> m' <> m -> norm2 (csub (cmatvec B m) x) < norm2 (csub (cmatvec B m') x))).

(** P is the (Moore-Penrose) pseudo-inverse of X as far as the hat matrix is concerned: X P is
    hermitian and idempotent. *)
Definition entry_at (M : cmat) (i j : nat) : C := nth j (nth i M []) (RtoC 0).
Definition mat_mul (X P : cmat) : cmat :=
  map (fun row => map (fun j => csum (map (fun q => Cmult (fst q) (nth j (snd q) (RtoC 0))) (combine row P)))
                      (seq 0 (length X))) X.
Definition projection (H : cmat) (n : nat) : Prop :=
  forall i j, (i < n)%nat -> (j < n)%nat ->
    entry_at H i j = Cconj (entry_at H j i) /\
    csum (map (fun k => Cmult (entry_at H i k) (entry_at H k j)) (seq 0 n)) = entry_at H i j.

(** How a run with passes h ends: returned coefficients b, weights w, reported rms and number n of
    iterations. *)
Inductive ended (phi : R -> R) (t : R) (lev : list R) (X : cmat) (y : list C) (tol : R) (maxit : nat) (h : list pass)
    (b : list C) (w : list xr) (rms : R) (n : nat) : Prop :=
| deteriorated a s s' : h = (a ++ [s; s'])%list -> consecutive (progress X y tol) (a ++ [s])%list ->
    mean_square X y s < mean_square X y s' ->
    b = p_b s -> w = map Fin (p_w s) -> rms = rms_of X y b -> length h = S n -> ended phi t lev X y tol maxit h b w rms n
| converged a s s' : h = (a ++ [s; s'])%list -> consecutive (progress X y tol) (a ++ [s])%list ->
    mean_square X y s' <= mean_square X y s -> mean_square X y s - mean_square X y s' < tol * mean_square X y s ->
    b = p_b s' -> w = map Fin (p_w s') -> rms = rms_of X y (p_b s) -> length h = n -> ended phi t lev X y tol maxit h b w rms n
| exhausted a s : h = (a ++ [s])%list -> consecutive (progress X y tol) h -> length h = maxit -> n = maxit ->
    b = p_b s -> reweighted phi t lev X y b w -> rms = rms_of X y b -> ended phi t lev X y tol maxit h b w rms n.

(** d is the sum of squared misfits, multiplied by weights w, of the reconstruction from c to the samples *)
Definition weighted_misfit (c : coef) (sm : list (R * C)) (w : list R) (d : R) : Prop :=
  exists zs, Forall2 (fun s z => yields c (fst s) z) sm zs /\ d = weighted_ss w (csub (map snd sm) zs).
