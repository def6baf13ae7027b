(** utide/_reconstruct.py. *)
From Verif Require Import M_Base M_Lib M_Time M_Options M_Slvinit M_Harmonics M_Diag M_Solve.
Open Scope R_scope.

(** The constit argument of reconstruct: [c in constit]; a string means substring search. *)
Inductive constit_arg := CNone | CSeq (l : list string) | CStr (s : string).

Definition is_substring (a b : string) : bool :=
  match String.index 0 a b with Some _ => true | None => false end.
Definition constit_in (c : string) (a : constit_arg) : bool :=
  match a with
  | CNone => true
  | CSeq l => existsb (String.eqb c) l
  | CStr s => is_substring c s
  end.

(** utide/_reconstruct.py:97-111: selection as a mask over the constituents ([ind] is an index
    list, a full slice, or a boolean mask; all keep the order of coef.name) *)
Definition rec_select (c : coef) (constit : constit_arg) (min_SNR min_PE : R) : res (list bool) :=
  match constit with
  | CNone =>
      if ((if Req_EM_T min_SNR 0 then true else false) && (if Req_EM_T min_PE 0 then true else false))
         || o_nodiagn (c_opt c)
      then Ok (map (fun _ => true) (c_name c))
      else
        do EN <- (if o_twodim (c_opt c) then
                    do a <- key (c_Lsmaj c); do b <- key (c_Lsmin c);
                    do x <- key (c_Lsmaj_ci c); do y <- key (c_Lsmin_ci c);
                    Ok (map2 (fun a b => Rsqr a + Rsqr b) a b,
                        map2 (fun x y => xadd (ci_sq x) (ci_sq y)) x y)
                  else
                    do a <- key (c_A c); do x <- key (c_A_ci c);
                    Ok (map Rsqr a, map ci_sq x));
        let '(E, N) := EN in
        let SNR := map2 (fun e n => xdiv (Fin e) n) E N in
        let PE := map (fun e => xdiv (Fin (100 * e)) (Fin (rsum E))) E in
        Ok (map2 (fun s p => xge s (Fin min_SNR) && xge p (Fin min_PE)) SNR PE)
  | _ => Ok (map (fun n => constit_in n constit) (c_name c))
  end.

Definition rpd : R := PI / 180.

(** utide/_reconstruct.py:113-126: complex coefficients (ap, am) of one constituent *)
Definition pm2 (maj mi th g : R) : C * C :=
  (Cmult (RtoC (/ 2 * (maj + mi))) (cis ((th - g) * rpd)),
   Cmult (RtoC (/ 2 * (maj - mi))) (cis ((th + g) * rpd))).
Definition pm1 (a g : R) : C * C :=
  let ap := Cmult (RtoC (/ 2 * a)) (cis (- g * rpd)) in (ap, Cconj ap).

Definition rec_pm (c : coef) (mask : list bool) : res (list (C * C)) :=
  if o_twodim (c_opt c) then
    do maj <- key (c_Lsmaj c); do mi <- key (c_Lsmin c); do th <- key (c_theta c);
    Ok (map (fun q => let '(((a, b), th), g) := q in pm2 a b th g)
            (compress mask (combine (combine (combine maj mi) th) (c_g c))))
  else
    do a <- key (c_A c);
    Ok (map (fun q => pm1 (fst q) (snd q)) (compress mask (combine a (c_g c)))).

(** one row of [np.dot(E, ap) + np.dot(np.conj(E), am)]; None when an entry is not finite *)
Definition fit_row (row : list (option C)) (pm : list (C * C)) : option C :=
  match all_some row with
  | None => None
  | Some r => Some (Cplus (cdot r (map fst pm)) (cdot (map Cconj r) (map snd pm)))
  end.

(** values written at the valid positions, NaN elsewhere; utide/_reconstruct.py:151-166 *)
Fixpoint scatter (good : list bool) (vals : list xr) : list xr :=
  match good with
  | [] => []
  | true :: g' => hd NaN vals :: scatter g' (tl vals)
  | false :: g' => NaN :: scatter g' vals
  end.

Definition xo (a : option R) : xr := match a with Some x => Fin x | None => NaN end.

Inductive series := Scalar (h : list xr) | Vector (u v : list xr).

(** utide/_reconstruct.py:93-172 (_reconstruct); t are the valid times *)
Definition reconstruct_core (t : list R) (good : list bool) (c : coef) (constit : constit_arg)
    (min_SNR min_PE : R) : res series :=
  do mask <- rec_select c constit min_SNR min_PE;
  do pm <- rec_pm c mask;
  let E := ut_E t (c_reftime c) (compress mask (c_frq c)) (compress mask (c_lind c)) (c_lat c)
                (flags_of (c_opt c)) in
  let fit := map (fun row => fit_row row pm) E in
  let trend := negb (o_notrend (c_opt c)) in
  let add mean slope f x := f + mean + (if trend then slope * (x - c_reftime c) else 0) in
  if o_twodim (c_opt c) then
    do um <- key (c_umean c); do vm <- key (c_vmean c);
    do us <- (if trend then key (c_uslope c) else Ok 0);
    do vs <- (if trend then key (c_vslope c) else Ok 0);
    Ok (Vector
          (scatter good (map2 (fun f x => xo (option_map (fun z => add um us (fst z) x) f)) fit t))
          (scatter good (map2 (fun f x => xo (option_map (fun z => add vm vs (snd z) x) f)) fit t)))
  else
    do mn <- key (c_mean c);
    do sl <- (if trend then key (c_slope c) else Ok 0);
    Ok (Scalar
          (scatter good (map2 (fun f x => xo (option_map (fun z => add mn sl (fst z) x) f)) fit t))).

(** The time argument of reconstruct: its number of dimensions (a scalar counts as a 1-D array of
    one element, np.atleast_1d) and its contents. *)
Record rec_out := {
  ro_t_in : tarray;
  ro_t_mpl : tarray + list xr;   (* inl = the very object t_in *)
  ro_series : series
}.

(** utide/_reconstruct.py:8-90 (reconstruct) *)
Definition reconstruct (L : lib) (t : tarray) (ndim : nat) (c : coef) (epoch : pyval)
    (constit : constit_arg) (min_SNR min_PE : R) : res rec_out :=
  if Nat.ltb 1 ndim then Err ValueError
  else
    do tn <- normalize_time (l_parse L) t epoch;
    let tm := masked_invalid tn [] in
    do s <- reconstruct_core (somes tm) (goodmask tm) c constit min_SNR min_PE;
    Ok {| ro_t_in := t;
          ro_t_mpl := if eq_str epoch "python" then inl t else inr tn;
          ro_series := s |}.
