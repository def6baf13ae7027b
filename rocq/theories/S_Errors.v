(** Specification vocabulary for standard errors of a whole analysis: weights of linear unbiased estimates. *)
From Verif Require Import M_Base M_Lib M_Options M_Slvinit M_Select M_Diag M_Solve M_Recon S_Basis S_Order S_Fit S_Ellipse S_Recon S_Model.
Open Scope R_scope.

(** numpy.linalg.inv in exact arithmetic: what it returns is the inverse on both sides *)
Definition centry_at (M : cmat) (i j : nat) : C := nth j (nth i M []) (RtoC 0).
Definition csquare (n : nat) (M : cmat) : Prop := length M = n /\ Forall (fun r => length r = n) M.
Definition product_is_identity (n : nat) (M X : cmat) : Prop := forall i j, (i < n)%nat -> (j < n)%nat ->
  csum (map (fun k => Cmult (centry_at M i k) (centry_at X k j)) (seq 0 n)) = RtoC (if Nat.eqb i j then 1 else 0).
Definition inv_exact (L : lib) : Prop := forall n M X, csquare n M -> l_inv L M = Ok X ->
  product_is_identity n M X /\ product_is_identity n X M.

(** number of real parameters per component: cosine and sine of every constituent, mean, trend *)
Definition params (c : coef) : nat := (2 * length (c_name c) + 1 + if o_notrend (c_opt c) then 0 else 1)%nat.

(** weighted sum over the samples of a function of time, and of the data (part: u or v) *)
Definition wsum (w : list R) (sm : list (R * C)) (f : R -> R) : R :=
  rsum (map (fun p => fst p * f (fst (snd p))) (combine w sm)).
Definition estimate (part : C -> R) (w : list R) (sm : list (R * C)) : R :=
  rsum (map (fun p => fst p * part (snd (snd p))) (combine w sm)).
Definition squares (w : list R) : R := rsum (map (fun x => x ^ 2) w).
(** the sum of products of two sets of weights: the covariance of the two estimates when all samples have independent
    errors of variance 1 *)
Definition products (w1 w2 : list R) : R := rsum (map (fun p => fst p * snd p) (combine w1 w2)).

(** The weights pick the cosine (sine) coefficient of constituent i out of every series made of the model
    functions: the weighted sum is 1 for that function and 0 for all others.  An estimate with such weights is
    unbiased. *)
Definition unbiased (c : coef) (sm : list (R * C)) (i : nat) (cosine : bool) (w : list R) : Prop :=
  length w = length sm /\
  (forall j, In j (c_lind c) ->
     wsum w sm (wave_cos c j) = (if cosine && Nat.eqb j i then 1 else 0) /\
     wsum w sm (wave_sin c j) = (if negb cosine && Nat.eqb j i then 1 else 0)) /\
  wsum w sm (fun _ => 1) = 0 /\
  (o_notrend (c_opt c) = false -> wsum w sm (fun x => x - c_reftime c) = 0).
(** the unbiased estimate of least variance when all samples have independent errors of equal variance: that
    variance is squares w times the variance of one sample *)
Definition best_unbiased (c : coef) (sm : list (R * C)) (i : nat) (cosine : bool) (w : list R) : Prop :=
  unbiased c sm i cosine w /\ forall w', unbiased c sm i cosine w' -> squares w <= squares w'.

(** the variance of one sample, estimated from the residuals: their squares over the degrees of freedom *)
Definition noise_variance (part : C -> R) (c : coef) (sm : list (R * C)) (q : R) : Prop :=
  exists rs, residuals c sm rs /\
    q = rsum (map (fun r => part r ^ 2) rs) / (INR (length sm) - INR (params c)).
(** the covariance of the errors of u and v in one sample, estimated from the residuals *)
Definition noise_covariance (c : coef) (sm : list (R * C)) (q : R) : Prop :=
  exists rs, residuals c sm rs /\
    q = rsum (map (fun r => fst r * snd r) rs) / (INR (length sm) - INR (params c)).
