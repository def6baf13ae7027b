(** Specification vocabulary for the intervals of an analysis with sample weights. *)
From Verif Require Import M_Base M_Lib M_Options M_Slvinit M_Select M_Diag M_Solve M_Recon S_Basis S_Order S_Fit S_Ellipse S_Recon S_Model S_Errors.
Open Scope R_scope.

(** Samples of weight w have errors of variance 1/w, in units of a common variance; samples of weight 0 are left
    out.  With errors independent between samples, this is the covariance of two linear estimates with factors
    o1 and o2. *)
Definition weighted_products (w o1 o2 : list R) : R :=
  rsum (map (fun p => if Req_EM_T (fst p) 0 then 0 else fst (snd p) * snd (snd p) / fst p) (combine w (combine o1 o2))).
Definition weighted_squares (w o : list R) : R := weighted_products w o o.
Definition leaves_out (w o : list R) : Prop := forall k, nth k w 0 = 0 -> nth k o 0 = 0.

(** the unbiased estimate of least variance for samples with weights w *)
Definition best_weighted (c : coef) (sm : list (R * C)) (w : list R) (i : nat) (cosine : bool) (o : list R) : Prop :=
  unbiased c sm i cosine o /\ leaves_out w o /\
  forall o', unbiased c sm i cosine o' -> leaves_out w o' -> weighted_squares w o <= weighted_squares w o'.

(** The measure of the noise in one component: the residuals times the weights times the data themselves, summed,
    over the degrees of freedom.  With weights 1 and least squares this is the sum of the squared residuals over the
    degrees of freedom. *)
Definition noise_measure (part : C -> R) (c : coef) (sm : list (R * C)) (w : list R) (q : R) : Prop :=
  exists rs, residuals c sm rs /\
    q = rsum (map (fun p => fst p * (part (snd (fst (snd p))) * part (snd (snd p)))) (combine w (combine sm rs))) /
        (INR (length sm) - INR (params c)).
Definition noise_comeasure (c : coef) (sm : list (R * C)) (w : list R) (q : R) : Prop :=
  exists rs, residuals c sm rs /\
    q = rsum (map (fun p => fst p * ((fst (snd (fst (snd p))) * snd (snd (snd p)) + snd (snd (fst (snd p))) * fst (snd (snd p))) / 2))
                  (combine w (combine sm rs))) /
        (INR (length sm) - INR (params c)).

(** the samples after a change of vertical datum *)
Definition on_datum (K : C) (sm : list (R * C)) : list (R * C) := map (fun x => (fst x, Cplus (snd x) K)) sm.

(** half-widths of a row after scaling the data by k: those of amplitudes scale (NaN stays NaN), those of angles
    do not change *)
Definition width_scaled (k : R) (a b : option (option xr)) : Prop :=
  match a with
  | Some (Some (Fin x)) => b = Some (Some (Fin (k * x)))
  | _ => b = a
  end.
Definition widths_scaled (k : R) (r r' : crow) : Prop :=
  w_g_ci r' = w_g_ci r /\
  match w_Lsmaj r with
  | Some _ => width_scaled k (w_Lsmaj_ci r) (w_Lsmaj_ci r') /\ width_scaled k (w_Lsmin_ci r) (w_Lsmin_ci r') /\ w_theta_ci r' = w_theta_ci r
  | None => width_scaled k (w_A_ci r) (w_A_ci r')
  end.

(** The Lomb-Scargle power of scaled data is the power times the square of the factor (any normalisation) *)
Definition lomb_quadratic (L : lib) : Prop := forall k t x f, l_lomb L t (map (Rmult k) x) f = map (Rmult (k * k)) (l_lomb L t x f).
