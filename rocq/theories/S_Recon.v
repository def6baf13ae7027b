(** Specification of the reconstruction, constituent by constituent. *)
From Coq Require Import Permutation.
From Verif Require Import M_Base M_Lib M_Time M_Options M_Harmonics M_Diag M_Solve M_Recon S_Basis S_Order.
Open Scope R_scope.

Definition deg (x : R) : R := x * (PI / 180).

(** tidal motion of one constituent: f = nodal factor, phi = astronomical phase (radians) *)
Definition scalar_tide (f phi A g : R) : R := A * f * cos (phi - deg g).
Definition ellipse_u (f phi maj mi th g : R) : R :=
  f * (maj * cos (deg th) * cos (phi - deg g) - mi * sin (deg th) * sin (phi - deg g)).
Definition ellipse_v (f phi maj mi th g : R) : R :=
  f * (maj * sin (deg th) * cos (phi - deg g) + mi * cos (deg th) * sin (phi - deg g)).

(** contribution of row r to (u, v) at time x; None when it is not finite *)
Definition tide (c : coef) (x : R) (r : crow) : option (R * R) :=
  let fl := flags_of (c_opt c) in
  match w_lind r, w_g r with
  | Some i, Some g =>
      match F_at fl (c_reftime c) (c_lat c) x i, U_at fl (c_reftime c) (c_lat c) x i, V_at fl (c_reftime c) x i with
      | Some f, Some u, Some v =>
          let phi := 2 * PI * (v + u) in
          if o_twodim (c_opt c) then
            match w_Lsmaj r, w_Lsmin r, w_theta r with
            | Some (Some a), Some (Some b), Some (Some th) =>
                Some (ellipse_u f phi a b th g, ellipse_v f phi a b th g)
            | _, _, _ => None
            end
          else match w_A r with Some (Some a) => Some (scalar_tide f phi a g, 0) | _ => None end
      | _, _, _ => None
      end
  | _, _ => None
  end.

(** sum of contributions; None as soon as one is not finite *)
Fixpoint tides (c : coef) (x : R) (l : list crow) : option (R * R) :=
  match l with
  | [] => Some (0, 0)
  | r :: l' => match tide c x r, tides c x l' with
               | Some p, Some q => Some (fst p + fst q, snd p + snd q)
               | _, _ => None
               end
  end.

(** mean and trend *)
Definition background (c : coef) (mean slope : option R) (x : R) : option R :=
  match mean with
  | None => None
  | Some m => if o_notrend (c_opt c) then Some m
              else option_map (fun s => m + s * (x - c_reftime c)) slope
  end.

(** which constituents take part *)
Definition chosen (c : coef) (constit : constit_arg) (min_SNR min_PE : R) (r : crow) : bool :=
  match constit, w_name r with
  | CSeq l, Some n => if in_dec string_dec n l then true else false
  | CStr s, Some n => is_substring n s
  | CNone, Some _ =>
      if o_nodiagn (c_opt c) then true
      else if Req_EM_T min_SNR 0 then
        (if Req_EM_T min_PE 0 then true
         else xge (snr r) (Fin min_SNR) && xge (share (energy r) (total c)) (Fin min_PE))
      else xge (snr r) (Fin min_SNR) && xge (share (energy r) (total c)) (Fin min_PE)
  | _, None => false
  end.

Definition plus (a b : option R) : xr := match a, b with Some x, Some y => Fin (x + y) | _, _ => NaN end.

(** the reconstruction at time x *)
Definition value_u (c : coef) (constit : constit_arg) (mS mP x : R) : xr :=
  let z := tides c x (filter (chosen c constit mS mP) (rows c)) in
  plus (option_map fst z)
       (if o_twodim (c_opt c) then background c (c_umean c) (c_uslope c) x
        else background c (c_mean c) (c_slope c) x).
Definition value_v (c : coef) (constit : constit_arg) (mS mP x : R) : xr :=
  let z := tides c x (filter (chosen c constit mS mP) (rows c)) in
  plus (option_map snd z) (background c (c_vmean c) (c_vslope c) x).

(** coefficient structures as solve makes them: one entry per constituent in every array, frequencies
    from the table linearised at the reference time, the arrays of the scalar or of the vector case *)
Definition present {A} (o : option A) : Prop := exists x, o = Some x.
Record well_formed (c : coef) : Prop := {
  wf_aligned : aligned c;
  wf_frq : c_frq c = map (fun i => nth i (linearized_freqs (c_reftime c)) 0) (c_lind c);
  wf_2d : o_twodim (c_opt c) = true ->
    present (c_Lsmaj c) /\ present (c_Lsmin c) /\ present (c_theta c) /\ present (c_umean c) /\ present (c_vmean c) /\
    (o_notrend (c_opt c) = false -> present (c_uslope c) /\ present (c_vslope c)) /\
    (o_nodiagn (c_opt c) = false -> present (c_Lsmaj_ci c) /\ present (c_Lsmin_ci c));
  wf_1d : o_twodim (c_opt c) = false ->
    c_Lsmaj c = None /\ present (c_A c) /\ present (c_mean c) /\
    (o_notrend (c_opt c) = false -> present (c_slope c)) /\
    (o_nodiagn (c_opt c) = false -> present (c_A_ci c))
}.

(** a value at each valid time (Some), NaN elsewhere *)
Definition placed (f : R -> xr) (t : list (option R)) : list xr :=
  map (fun o => match o with Some x => f x | None => NaN end) t.

(** table positions *)
Definition known_lind (c : coef) : Prop := forall i, In i (c_lind c) -> (i < 146)%nat.

(** nodal corrections are off, or the latitude is one where they are finite *)
Definition corrections_finite (c : coef) : Prop :=
  o_nodsatnone (c_opt c) = true \/ 0 < Rabs (c_lat c) <= 90.

Definition out_u (s : series) : list xr := match s with Scalar h => h | Vector u _ => u end.
Definition out_v (s : series) : option (list xr) := match s with Scalar _ => None | Vector _ v => Some v end.

(** difference of finite values *)
Definition xminus (a b : xr) : xr := match a, b with Fin x, Fin y => Fin (x - y) | _, _ => NaN end.

(** each array of the output *)
Definition outputs (s : series) : list (list xr) :=
  match s with Scalar h => [h] | Vector u v => [u; v] end.

Definition series_app (a b : series) : option series :=
  match a, b with
  | Scalar x, Scalar y => Some (Scalar (x ++ y))
  | Vector x1 x2, Vector y1 y2 => Some (Vector (x1 ++ y1) (x2 ++ y2))
  | _, _ => None
  end.

(** concatenation of numeric times, or of dates of one unit *)
Definition cat (a b ab : tarray) : Prop :=
  (exists x y, a = TNum x /\ b = TNum y /\ ab = TNum (x ++ y)) \/
  (exists u x y, a = TDate u x /\ b = TDate u y /\ ab = TDate u (x ++ y)).

(** entry by entry *)
Definition merge (f : xr -> xr -> xr -> xr) (a b c : list xr) : list xr :=
  map (fun p => f (fst (fst p)) (snd (fst p)) (snd p)) (combine (combine a b) c).

(** the series made of background and the rows rs alone *)
Definition made_of (c : coef) (rs : list crow) (tn : list xr) (s : series) : Prop :=
  let u x := plus (option_map fst (tides c x rs))
                  (if o_twodim (c_opt c) then background c (c_umean c) (c_uslope c) x else background c (c_mean c) (c_slope c) x) in
  let v x := plus (option_map snd (tides c x rs)) (background c (c_vmean c) (c_vslope c) x) in
  s = if o_twodim (c_opt c) then Vector (placed u (map finite tn)) (placed v (map finite tn)) else Scalar (placed u (map finite tn)).
