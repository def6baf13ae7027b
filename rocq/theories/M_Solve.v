(** utide/_solve.py:122-433: solve and _solv1. *)
From Verif Require Import M_Base M_Lib M_Time M_Options M_Slvinit M_Harmonics M_Select M_Ellipse
  M_Robust M_Period M_Conf M_Diag.
Open Scope R_scope.

(** utide/_solve.py:253 *)
Definition flags_of (o : optr) : ngflgs :=
  {| NodsatLint := o_nodsatlint o; NodsatNone := o_nodsatnone o;
     GwchLint := o_gwchlint o; GwchNone := o_gwchnone o |}.

(** complex values that may be non-finite *)
Definition ocmul (a b : option C) : option C :=
  match a, b with Some x, Some y => Some (Cmult x y) | _, _ => None end.
Definition ocdiv (a b : option C) : option C :=
  match a, b with
  | Some x, Some y => if Ceq_dec y (RtoC 0) then None else Some (Cdiv x y)
  | _, _ => None
  end.
Definition oconj (a : option C) : option C := option_map Cconj a.

(** utide/_solve.py:268-276: exact inference, entries of Etilp and Etilm at one time;
    e = ut_E of the reference, eI = ut_E of its inferred constituents *)
Definition etil_p (e : option C) (eI : list (option C)) (Rp : list C) : option C :=
  ocmul e (ocadd (Some (RtoC 1))
             (ocsum (map (fun p => ocmul (ocdiv (fst p) e) (Some (snd p))) (combine eI Rp)))).
Definition etil_m (e : option C) (eI : list (option C)) (Rm : list C) : option C :=
  ocmul e (ocadd (Some (RtoC 1))
             (ocsum (map (fun p => ocmul (ocdiv (fst p) e) (Some (Cconj (snd p)))) (combine eI Rm)))).

Definition first_col {A} (d : A) (M : list (list A)) : list A := map (fun r => nth 0 r d) M.

(** columns Etilp[:,k], Etilm[:,k] of one reference; utide/_solve.py:267-291.
    In the approximate case Q[k] and beta[k] are computed but never used; the assignment
    [beta[k] = array] raises ValueError unless the reference has exactly one inferred constituent
    (an array of size one is accepted). *)
Definition ref_columns (t : list R) (tref : R) (lat : R) (g : ngflgs) (approx : bool) (r : refstruct)
  : res (list (option C) * list (option C)) :=
  let e := first_col None (ut_E t tref [r_frq r] [r_lind r] lat g) in
  if approx then
    if Nat.eqb (length (r_Ifrq r)) 1 then Ok (e, e) else Err ValueError
  else
    let eI := ut_E t tref (r_Ifrq r) (r_Ilind r) lat g in
    Ok (map (fun p => etil_p (fst p) (snd p) (r_Rp r)) (combine e eI),
        map (fun p => etil_m (fst p) (snd p) (r_Rm r)) (combine e eI)).

(** [np.hstack] of rows with columns *)
Definition hcat {A} (rows : list (list A)) (c : list A) : list (list A) :=
  map (fun p => fst p ++ [snd p])%list (combine rows c).

(** An empty Python list as [lind] becomes a float array in np.atleast_1d (utide/harmonics.py:61),
    and indexing with it raises IndexError (utide/harmonics.py:157, 164, 185) unless the shortcut of
    utide/harmonics.py:65-68 is taken. *)
Definition bad_empty_index (g : ngflgs) (s : sel) : bool :=
  negb (s_NRarr s) && Nat.eqb (length (s_NRlind s)) 0 && negb (NodsatNone g && GwchNone g).

(** utide/_solve.py:257-299: the model matrix, entries None when not finite *)
Definition basis (t : list R) (tref lor lat : R) (o : optr) (s : sel)
  : res (list (list (option C))) :=
  let g := flags_of o in
  if bad_empty_index g s then Err IndexError else
  let E := ut_E t tref (s_NRfrq s) (s_NRlind s) lat g in
  let B := map (fun r => r ++ map oconj r)%list E in
  do B <- match o_infer o with
          | None => Ok B
          | Some inf =>
              do cols <- mapM (ref_columns t tref lat g (inf_approx inf)) (s_R s);
              let B := fold_left hcat (map fst cols) B in
              Ok (fold_left hcat (map (fun c => map oconj (snd c)) cols) B)
          end;
  let B := map (fun r => r ++ [Some (RtoC 1)])%list B in
  Ok (if o_notrend o then B
      else hcat B (map (fun x => if Req_EM_T lor 0 then None else Some (RtoC ((x - tref) / lor))) t)).

(** utide/_solve.py:306-309 *)
Definition raw_data (u : list R) (v : option (list R)) : list C :=
  match v with Some v => combine u v | None => map RtoC u end.

Definition cslice (m : list C) (i n : nat) : list C := firstn n (skipn i m).

(** utide/_solve.py:334-336 *)
Definition ap_of (m : list C) (nNR nR : nat) : list C :=
  (cslice m 0 nNR ++ cslice m (2 * nNR) nR)%list.
Definition am_of (m : list C) (nNR nR : nat) : list C :=
  (cslice m nNR nNR ++ cslice m (2 * nNR + nR) nR)%list.

(** utide/_solve.py:376-377: coefficients of the inferred constituents, grouped by reference *)
Definition inferred_coefs (Rs : list (list C)) (refs : list C) : list C :=
  List.concat (map (fun p => map (fun r => Cmult r (snd p)) (fst p)) (combine Rs refs)).

(** utide/_solve.py:338-339, 347-348, 380-389: cosine/sine coefficients of one constituent *)
Definition Xu_of (p m : C) : R := fst (Cplus p m).
Definition Yu_of (p m : C) : R := - snd (Cminus p m).
Definition Xv_of (p m : C) : R := snd (Cplus p m).
Definition Yv_of (p m : C) : R := fst (Cminus p m).

Definition ellipse_of (twodim : bool) (p m : C) : R * R * R * R :=
  if twodim then cs2cep2 (Xu_of p m) (Yu_of p m) (Xv_of p m) (Yv_of p m)
  else cs2cep1 (Xu_of p m) (Yu_of p m).

(** m[-1], m[-2] *)
Definition m_last (m : list C) (k : nat) : C := nth (length m - k) m (RtoC 0).

Definition oif {A} (b : bool) (x : A) : option A := if b then Some x else None.

(** utide/_solve.py:227-433 (_solv1).  lstsq raises LinAlgError on non-finite entries. *)
Definition fit (L : lib) (t : list R) (u : list R) (v : option (list R)) (tref lor lat : R)
    (o : optr) (s : sel) : res (list (list C) * list C * list C * list xr) :=
  do Bo <- basis t tref lor lat o s;
  let xraw := raw_data u v in
  match finite_mat Bo with
  | None => Err LinAlgError
  | Some B =>
      if eq_str (o_method o) "ols" then
        do r <- l_lstsq L B xraw PNone;
        let '(m, _, _, _) := r in
        Ok (B, xraw, m, map (fun _ => Fin 1) t)
      else
        do r <- robustfit_kw L B xraw (o_robust_kw o);
        Ok (B, xraw, rf_b r, rf_w r)
  end.

(** utide/_solve.py:325-330 *)
Definition model_fit (twodim : bool) (B : list (list C)) (m : list C) : list C :=
  let xmod := cmatvec B m in if twodim then xmod else map (fun z => RtoC (fst z)) xmod.

(** utide/_solve.py:332-394: amplitudes and phases of all constituents in the order of coef.name *)
Definition all_pm (m : list C) (s : sel) : list (C * C) :=
  let ap := ap_of m (s_nNR s) (s_nR s) in
  let am := am_of m (s_nNR s) (s_nR s) in
  (combine ap am ++
   combine (inferred_coefs (map r_Rp (s_R s)) (skipn (s_nNR s) ap))
           (inferred_coefs (map r_Rm (s_R s)) (skipn (s_nNR s) am)))%list.

Definition coef_core (tref lor lat : R) (o : optr) (s : sel) (m : list C) (W : list xr) : coef :=
  let tw := o_twodim o in
  let ep := map (fun p => ellipse_of tw (fst p) (snd p)) (all_pm m s) in
  let tr := negb (o_notrend o) in
  let mn := m_last m (if tr then 2 else 1) in
  let sl := m_last m 1 in
  {| c_name := s_name s; c_frq := s_frq s; c_lind := s_lind s; c_reftime := tref;
     c_lat := lat; c_opt := o; c_nNR := s_nNR s; c_nR := s_nR s; c_nI := s_nI s;
     c_weights := W; c_g := map e_g ep;
     c_A := oif (negb tw) (map e_maj ep);
     c_Lsmaj := oif tw (map e_maj ep);
     c_Lsmin := oif tw (map e_min ep);
     c_theta := oif tw (map e_theta ep);
     c_mean := oif (negb tw) (fst mn);
     c_slope := oif (negb tw && tr) (fst sl / lor);
     c_umean := oif tw (fst mn); c_vmean := oif tw (snd mn);
     c_uslope := oif (tw && tr) (fst sl / lor); c_vslope := oif (tw && tr) (snd sl / lor);
     c_g_ci := None; c_A_ci := None; c_Lsmaj_ci := None; c_Lsmin_ci := None; c_theta_ci := None;
     c_PE := None; c_SNR := None; c_diagn := None |}.

Definition set_ci (c : coef) (twodim : bool) (cis : list ci) : coef :=
  {| c_name := c_name c; c_frq := c_frq c; c_lind := c_lind c; c_reftime := c_reftime c;
     c_lat := c_lat c; c_opt := c_opt c; c_nNR := c_nNR c; c_nR := c_nR c; c_nI := c_nI c;
     c_weights := c_weights c; c_g := c_g c; c_A := c_A c; c_Lsmaj := c_Lsmaj c;
     c_Lsmin := c_Lsmin c; c_theta := c_theta c; c_mean := c_mean c; c_slope := c_slope c;
     c_umean := c_umean c; c_vmean := c_vmean c; c_uslope := c_uslope c; c_vslope := c_vslope c;
     c_g_ci := Some (map ci_g cis);
     c_A_ci := oif (negb twodim) (map ci_maj cis);
     c_Lsmaj_ci := oif twodim (map ci_maj cis);
     c_Lsmin_ci := oif twodim (map ci_min cis);
     c_theta_ci := oif twodim (map ci_theta cis);
     c_PE := c_PE c; c_SNR := c_SNR c; c_diagn := c_diagn c |}.

(** coefficients handed to _confidence: the fitted (not inferred) constituents *)
Definition conf_input (twodim : bool) (m : list C) (s : sel) : list cs :=
  map (fun p => let '(a, b) := p in let ep := ellipse_of twodim a b in
         {| x_Xu := Xu_of a b; x_Yu := Yu_of a b; x_Xv := Xv_of a b; x_Yv := Yv_of a b;
            x_g := e_g ep; x_theta := e_theta ep |})
      (combine (ap_of m (s_nNR s) (s_nR s)) (am_of m (s_nNR s) (s_nR s))).

(** weighted residual, real and imaginary part *)
Definition resid_parts (twodim : bool) (W : list xr) (xraw xmod : list C)
  : option (list R * option (list R)) :=
  match all_finite W with
  | None => None
  | Some W =>
      let e := map (fun p => Cmult (RtoC (fst p)) (snd p))
                   (combine W (map (fun p => Cminus (fst p) (snd p)) (combine xraw xmod))) in
      Some (map fst e, oif twodim (map snd e))
  end.

Definition solv1 (L : lib) (t : pyarr tarray) (u : pyarr (list xr)) (v : option (pyarr (list xr)))
    (lat : option R) (opts : dict pyval) : res coef :=
  do si <- slvinit (l_parse L) t u v lat (oget opts "epoch");
  do lat <- (match lat with Some l => Ok l | None => Err ValueError end);
  do o <- read_opt (slv_opts (match v with Some _ => true | None => false end) (si_equi si) opts);
  do s <- ut_cnstitsel (si_tref si) (xdiv (Fin (o_rmin o)) (Fin (24 * si_lor si))) (o_cnstit o) (o_infer o);
  do f <- fit L (si_t si) (si_u si) (si_v si) (si_tref si) (si_lor si) lat o s;
  let '(B, xraw, m, W) := f in
  let xmod := model_fit (o_twodim o) B m in
  let c := coef_core (si_tref si) (si_lor si) lat o s m W in
  let nm := (2 * (s_nNR s + s_nR s) + 1 + (if o_notrend o then 0 else 1))%nat in
  do c <- (if o_conf_int o then
             do cis <- confidence L o s (si_tin si) (si_t si) (resid_parts (o_twodim o) W xraw xmod)
                                  (si_elor si) xraw xmod W B nm (conf_input (o_twodim o) m s);
             Ok (set_ci c (o_twodim o) cis)
           else Ok c);
  do c <- (if o_nodiagn o then Ok c
           else do d <- diagn_of L c; do pe <- PE_of c; do snr <- SNR_of c;
                Ok (set_diag c (Some pe) (Some snr) (Some d)));
  reorder L c (o_ordercnstit o).

(** utide/_solve.py:122-224 (solve) *)
Definition solve (L : lib) (t : pyarr tarray) (u : pyarr (list xr)) (v : option (pyarr (list xr)))
    (lat : option R) (opts : dict pyval) : res coef :=
  do compat <- process_opts opts (match v with Some _ => true | None => false end);
  solv1 L t u v lat compat.
