(** Specification vocabulary for the fitted model: competing coefficients, misfit, least squares. *)
From Verif Require Import M_Base M_Lib M_Time M_Slvinit M_Options M_Slvinit M_Select M_Diag M_Solve M_Recon S_Dict S_Options S_Basis S_Order S_Select S_Fit S_Ellipse S_Slv S_Recon.
Open Scope R_scope.

(** squared length of a complex vector *)
Definition norm2 (z : list C) : R := rsum (map (fun c => fst c ^ 2 + snd c ^ 2) z).
Definition csub (a b : list C) : list C := map (fun p => Cminus (fst p) (snd p)) (combine a b).

(** The documented purpose of numpy.linalg.lstsq (with its default rcond): the answer minimises the
    Euclidean norm of b - a x over all x.  (In floating point singular values below the cut-off are
    treated as zero; this says that none is cut off.) *)
Definition lstsq_minimises (L : lib) : Prop :=
  forall B x m r k s, l_lstsq L B x PNone = Ok (m, r, k, s) ->
  forall m', length m' = length m -> norm2 (csub (cmatvec B m) x) <= norm2 (csub (cmatvec B m') x).

(** reconstruction with all constituents *)
Definition recon_u (c : coef) (x : R) : xr := value_u c CNone 0 0 x.
Definition recon_v (c : coef) (x : R) : xr := value_v c CNone 0 0 x.

(** the value reconstructed from c at time x, as a complex number (u + iv, or h for scalars) *)
Definition yields (c : coef) (x : R) (z : C) : Prop :=
  recon_u c x = Fin (fst z) /\
  if o_twodim (c_opt c) then recon_v c x = Fin (snd z) else snd z = 0.

(** the samples (time, value) that take part in the fit: scalar values are real, vectors are u + iv *)
Inductive samples (parse : string -> option Z) (e : pyval) :
    pyarr tarray -> pyarr (list xr) -> option (pyarr (list xr)) -> list (R * C) -> Prop :=
| scalar_samples n t mt us um xs : one_d n us um -> normalize_time parse t e = Ok xs -> length xs = n ->
    samples parse e (NdArr [n] t mt) (NdArr [n] us um) None
      (map (fun s => (fst s, RtoC (snd s))) (valid_scalar xs us um))
| vector_samples n t mt us um vs vm xs : one_d n us um -> one_d n vs vm -> normalize_time parse t e = Ok xs -> length xs = n ->
    samples parse e (NdArr [n] t mt) (NdArr [n] us um) (Some (NdArr [n] vs vm))
      (map (fun s => (fst (fst s), (snd (fst s), snd s))) (valid_vector xs us um vs vm)).

(** d is the sum of squared misfits of the reconstruction from c to the samples *)
Definition misfit (c : coef) (sm : list (R * C)) (d : R) : Prop :=
  exists zs, Forall2 (fun s z => yields c (fst s) z) sm zs /\ d = norm2 (csub (map snd sm) zs).

(** rotary components of one constituent: counter-clockwise, clockwise *)
Definition rotary (r : crow) : option (C * C) :=
  match w_g r, w_Lsmaj r, w_Lsmin r, w_theta r, w_A r with
  | Some g, Some (Some a), Some (Some b), Some (Some th), _ =>
      Some (Cmult (RtoC ((a + b) / 2)) (cis (rad (th - g))), Cmult (RtoC ((a - b) / 2)) (cis (rad (th + g))))
  | Some g, None, _, _, Some (Some a) =>
      Some (Cmult (RtoC (a / 2)) (cis (rad (- g))), Cmult (RtoC (a / 2)) (cis (rad g)))
  | _, _, _, _, _ => None
  end.

(** row a has the prescribed multiples of the rotary components of row b *)
Definition multiple (rp rm : C) (a b : crow) : Prop :=
  exists p q, rotary b = Some (p, q) /\ rotary a = Some (Cmult rp p, Cmult rm q).

(** every inferred constituent is the prescribed multiple of its reference *)
Definition ties (c : coef) : Prop :=
  match o_infer (c_opt c) with
  | None => True
  | Some inf => forall j i r rp rm, request_at inf (o_twodim (c_opt c)) j (i, r, rp, rm) ->
      forall a b, In a (rows c) -> In b (rows c) -> w_name a = Some i -> w_name b = Some r -> multiple rp rm a b
  end.

(** other coefficients for the same constituents, times and options, with the same inference *)
Record rival (c c' : coef) : Prop := {
  rv_wf : well_formed c';
  rv_name : c_name c' = c_name c; rv_lind : c_lind c' = c_lind c;
  rv_reftime : c_reftime c' = c_reftime c; rv_lat : c_lat c' = c_lat c; rv_opt : c_opt c' = c_opt c;
  rv_ties : ties c' }.

(** approximate inference was asked for *)
Definition approximate (o : optr) : bool := match o_infer o with Some inf => inf_approx inf | None => false end.

(** mean and slope (u + iv for vectors) *)
Definition mean_is (c : coef) (z : C) : Prop :=
  if o_twodim (c_opt c) then c_umean c = Some (fst z) /\ c_vmean c = Some (snd z) else c_mean c = Some (fst z).
Definition slope_is (c : coef) (z : C) : Prop :=
  if o_twodim (c_opt c) then c_uslope c = Some (fst z) /\ c_vslope c = Some (snd z) else c_slope c = Some (fst z).

(** nothing but zeros, in the fields that belong to the kind of result *)
Definition silent (c : coef) : Prop :=
  (forall r, In r (rows c) -> rotary r = Some (RtoC 0, RtoC 0)) /\
  mean_is c (RtoC 0) /\ (o_notrend (c_opt c) = false -> slope_is c (RtoC 0)).

(** the sample times tell the coefficients apart: only zero coefficients (for these constituents, with the
    same inference, mean and trend options) reconstruct to zero at all of them *)
Definition identifiable (c : coef) (ts : list R) : Prop :=
  forall c0, rival c c0 ->
    (forall x, In x ts -> recon_u c0 x = Fin 0 /\ (o_twodim (c_opt c) = true -> recon_v c0 x = Fin 0)) -> silent c0.

(** the residuals data - reconstruction at the samples *)
Definition residuals (c : coef) (sm : list (R * C)) (rs : list C) : Prop :=
  Forall2 (fun s r => yields c (fst s) (Cminus (snd s) r)) sm rs.
(** residuals uncorrelated with a function of time: the products sum to zero (for vectors: u and v) *)
Definition uncorrelated (w : R -> R) (sm : list (R * C)) (rs : list C) : Prop :=
  csum (map (fun p => Cmult (RtoC (w (fst (fst p)))) (snd p)) (combine sm rs)) = RtoC 0.
(** cosine and sine of constituent number i of the table with the nodal corrections in use *)
Definition wave_cos (c : coef) (i : nat) (x : R) : R :=
  match basis_at (flags_of (c_opt c)) (c_reftime c) (c_lat c) x i with Some e => fst e | None => 0 end.
Definition wave_sin (c : coef) (i : nat) (x : R) : R :=
  match basis_at (flags_of (c_opt c)) (c_reftime c) (c_lat c) x i with Some e => snd e | None => 0 end.

(** row r' is row r with amplitudes multiplied by k and phase changed according to rel; the phase counts only
    when the amplitude is not zero, phase and inclination only when the ellipse is not a circle *)
Definition row_like (k : R) (rel : R -> R -> Prop) (r r' : crow) : Prop :=
  w_name r' = w_name r /\ w_lind r' = w_lind r /\
  match w_Lsmaj r, w_Lsmin r, w_theta r, w_A r, w_g r with
  | Some (Some a), Some (Some b), Some (Some th), _, Some g =>
      exists th' g', w_Lsmaj r' = Some (Some (k * a)) /\ w_Lsmin r' = Some (Some (k * b)) /\
        w_theta r' = Some (Some th') /\ w_g r' = Some g' /\ (Rabs b < a -> th' = th /\ rel g g')
  | None, _, _, Some (Some a), Some g =>
      exists g', w_A r' = Some (Some (k * a)) /\ w_g r' = Some g' /\ (a <> 0 -> rel g g')
  | _, _, _, _, _ => False
  end.
Definition opposite (g g' : R) : Prop := same_angle 360 g' (g + 180).

(** c is the result of solve for the samples sm (at least one), with constituents in a sorted order *)
Record analysis (L : lib) (t : pyarr tarray) (u : pyarr (list xr)) (v : option (pyarr (list xr))) (lat : option R)
    (opts : dict pyval) (sm : list (R * C)) (c : coef) : Prop := {
  an_shape : lstsq_shape L;
  an_perm : argsort_perm L;
  an_keys : unique_keys opts;
  an_order : forall x, setting opts "order_constit"%string x -> sorted_order x;
  an_samples : exists e, setting opts "epoch"%string e /\ samples (l_parse L) e t u v sm;
  an_some : sm <> [];
  an_solve : solve L t u v lat opts = Ok c }.

(** the value reconstructed from some of the constituents only *)
Definition yields_only (c : coef) (names : list string) (x : R) (z : C) : Prop :=
  value_u c (CSeq names) 0 0 x = Fin (fst z) /\
  if o_twodim (c_opt c) then value_v c (CSeq names) 0 0 x = Fin (snd z) else snd z = 0.
(** names of the constituents that were not inferred *)
Definition not_inferred (c : coef) : list string :=
  match o_infer (c_opt c) with
  | None => c_name c
  | Some inf => filter (fun n => if in_dec string_dec n (inf_inferred inf) then false else true) (c_name c)
  end.
(** the residuals data - reconstruction from some of the constituents *)
Definition residuals_only (c : coef) (names : list string) (sm : list (R * C)) (rs : list C) : Prop :=
  Forall2 (fun s r => yields_only c names (fst s) (Cminus (snd s) r)) sm rs.
