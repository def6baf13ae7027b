(** Arrays as numpy has them: an array is a list of addresses of numbers, so that arrays can share numbers (views, slices, the
    same object under two names) and in-place operations (u[mask] = ..., rr[j] *= ...) change what other arrays show.
    Modelled so: the arguments of solve and reconstruct, the table sat.amprat of the package, every array that the package
    writes to in place after creating it from another one, and the arrays reconstruct returns.
    Arrays that the package creates and that nobody writes to later are values, as in the other M_ files. *)
From Coq Require Import QArith Qreals.
From Verif Require Import M_Base M_Lib M_Tables M_Const M_Time M_Options M_Slvinit M_Harmonics M_Select M_Ellipse M_Robust M_Period M_Conf M_Diag M_Solve M_Recon.
Open Scope R_scope.
Open Scope string_scope.

(** ** memory *)
Record mem := { cell : nat -> xr; free : nat }.   (* addresses from [free] on are not in use *)
Definition arr := list nat.
Definition look (m : mem) (a : arr) : list xr := map (cell m) a.
Definition poke (m : mem) (i : nat) (x : xr) : mem := {| cell := fun j => if Nat.eqb j i then x else cell m j; free := free m |}.
Fixpoint store (m : mem) (a : arr) (l : list xr) : mem :=
  match a, l with
  | i :: a', x :: l' => store (poke m i x) a' l'
  | _, _ => m
  end.

(** a piece of program: outcome and memory afterwards, also when it raises *)
Definition act (A : Type) := mem -> res A * mem.
Definition ret {A} (x : A) : act A := fun m => (Ok x, m).
Definition lift {A} (r : res A) : act A := fun m => (r, m).
Definition andthen {A B} (p : act A) (f : A -> act B) : act B :=
  fun m => match p m with (Ok x, m') => f x m' | (Err e, m') => (Err e, m') end.
Notation "'go' x <- p ; q" := (andthen p (fun x => q)) (at level 200, x name, p at level 100, q at level 200).
(** a new array with the given contents *)
Definition alloc (l : list xr) : act arr :=
  fun m => let a := seq (free m) (length l) in (Ok a, store {| cell := cell m; free := free m + length l |} a l).
Definition fetch (a : arr) : act (list xr) := fun m => (Ok (look m a), m).
Definition assign (a : arr) (l : list xr) : act unit := fun m => (Ok tt, store m a l).
(** [.copy()] *)
Definition copy (a : arr) : act arr := go l <- fetch a; alloc l.

(** ** utide/harmonics.py *)

(** the table sat.amprat (utide/_ut_constants.py, loaded at import), which the functions of harmonics.py read *)
Definition table : arr := seq 0 (length sat_amprat).

(** [a *= f] *)
Definition scale_in_place (a : arr) (f : xr) : act unit := go l <- fetch a; assign a (map (fun x => xmul x f) l).
(** utide/harmonics.py:125-131 *)
Definition rr_mem (lat : R) : act (list xr) :=
  go rr <- copy table;
  go d1 <- scale_in_place (compress (map (Nat.eqb 1) sat_ilatfac) rr) (latfac lat 1);
  go d2 <- scale_in_place (compress (map (Nat.eqb 2) sat_ilatfac) rr) (latfac lat 2);
  fetch rr.

(** utide/harmonics.py:133-191, 34-80 given rr: the same as sat_mat, sat_F, F_col, U_col, FUV, ut_E of M_Harmonics.v *)
Definition sat_mat_of (rr : list xr) (jd : R) : list (option C) :=
  map (fun p => match fst p with
                | Fin r => Some (Cmult (RtoC r) (cis (2 * PI * snd p)))
                | _ => None
                end) (combine rr (sat_uu jd)).
Definition sat_F_of (rr : list xr) (jd : R) : list (option C) :=
  map (fun ii => ocadd (Some (RtoC 1))
                   (ocsum (map snd (filter (fun p => Nat.eqb (pred (fst p)) ii)
                                           (combine sat_iconst (sat_mat_of rr jd))))))
      (seq 0 nconst).
Definition F_col_of (rr : list xr) (jd : R) : list (option R) :=
  fold_left (fun F '(i0, n, k) =>
               list_set F k (oprod (map (fun ik => option_map (fun f => rpow f (Rabs (sh_coef ik)))
                                                              (nth (sh_j ik) F None)) (seq i0 n))))
            shallow_loop (map (option_map Cmod) (sat_F_of rr jd)).
Definition U_col_of (rr : list xr) (jd : R) : list (option R) :=
  fold_left (fun U '(i0, n, k) =>
               list_set U k (osum (map (fun ik => omul (nth (sh_j ik) U None) (Some (sh_coef ik)))
                                       (seq i0 n))))
            shallow_loop (map (option_map (fun z => angle z / (2 * PI))) (sat_F_of rr jd)).
Definition FUV_of (rr : list xr) (t : list R) (tref : R) (lind : list nat) (g : ngflgs)
  : list (list (option R)) * list (list (option R)) * list (list (option R)) :=
  let nt := length t in
  let nc := length lind in
  let '(F, U) :=
    if NodsatNone g then (ones nt nc 1, ones nt nc 0)
    else
      let tt := if NodsatLint g then [tref] else t in
      (map (fun x => pick lind (F_col_of rr x)) tt, map (fun x => pick lind (U_col_of rr x)) tt) in
  let V :=
    if GwchNone g then map (fun x => map Some (lin_arg x tref (sel_freq tref lind))) t
    else
      let tt := if GwchLint g then [tref] else t in
      let V := map (fun x => pick lind (V_col x)) tt in
      if GwchLint g then
        map (fun p => map (fun q => oadd (fst q) (Some (snd q)))
                          (combine (fst p) (lin_arg (snd p) tref (sel_freq tref lind))))
            (combine (bcast nt V) t)
      else V in
  (F, U, V).
Definition ut_E_of (rr : list xr) (t : list R) (tref : R) (frq : list R) (lind : list nat) (g : ngflgs)
  : list (list (option C)) :=
  let nt := length t in
  let nc := length frq in
  let '(F, U, V) :=
    if NodsatNone g && GwchNone g then
      (ones nt nc 1, ones nt nc 0, map (fun x => map Some (lin_arg x tref frq)) t)
    else FUV_of rr t tref lind g in
  E_rows (bcast nt F) (bcast nt U) (bcast nt V).
(** utide/harmonics.py:34-80, 110-155: the satellites are looked up unless the nodal correction is off *)
Definition ut_E_mem (t : list R) (tref : R) (frq : list R) (lind : list nat) (lat : R) (g : ngflgs)
  : act (list (list (option C))) :=
  if NodsatNone g then ret (ut_E_of [] t tref frq lind g)
  else go rr <- rr_mem lat; ret (ut_E_of rr t tref frq lind g).

(** ** times *)

(** A time argument: an array of numbers, or another object (dates, a Python list), which the package turns into new arrays. *)
Inductive targ := InPlace (a : arr) | Other (x : tarray).
Definition tval (m : mem) (t : targ) : tarray := match t with InPlace a => TNum (look m a) | Other x => x end.
(** utide/_time_conversion.py:56-85 (_normalize_time): with epoch='python' an array of numbers is returned itself (line 72),
    everything else is a new array *)
Definition normalize_mem (parse : string -> option Z) (t : targ) (epoch : pyval) : act arr :=
  match t with
  | InPlace a => if eq_str epoch "python" then ret a
                 else go l <- fetch a; go n <- lift (normalize_time parse (TNum l) epoch); alloc n
  | Other x => go n <- lift (normalize_time parse x epoch); alloc n
  end.
(** [np.ma.masked_invalid(a)] copies the data and the mask *)
Definition masked_mem (a : arr) (mask : list bool) : act (list (option R)) :=
  go b <- copy a; go l <- fetch b; ret (masked_invalid l mask).

(** ** utide/_solve.py *)

Definition pmap {A B} (f : A -> B) (a : pyarr A) : pyarr B :=
  match a with PyList d => PyList (f d) | NdArr s d k => NdArr s (f d) k end.

(** utide/_solve.py:465-528 (_slvinit) *)
Definition slvinit_mem (parse : string -> option Z) (t : pyarr targ) (u : pyarr arr) (v : option (pyarr arr))
    (lat : option R) (epoch : pyval) : act slv :=
  go d <- lift (check_args t u v lat);
  go tn <- normalize_mem parse (arr_data t) epoch;
  go tin <- masked_mem tn [];
  go uin <- masked_mem (arr_data u) (arr_mask u);
  go vin <- match v with
            | None => ret None
            | Some v => go x <- masked_mem (arr_data v) (arr_mask v); ret (Some x)
            end;
  lift (slv_core tin uin vin).

(** utide/_solve.py:267-291 *)
Definition ref_columns_mem (t : list R) (tref : R) (lat : R) (g : ngflgs) (approx : bool) (r : refstruct)
  : act (list (option C) * list (option C)) :=
  go E <- ut_E_mem t tref [r_frq r] [r_lind r] lat g;
  let e := first_col None E in
  if approx then
    if Nat.eqb (length (r_Ifrq r)) 1 then ret (e, e) else lift (Err ValueError)
  else
    go eI <- ut_E_mem t tref (r_Ifrq r) (r_Ilind r) lat g;
    ret (map (fun p => etil_p (fst p) (snd p) (r_Rp r)) (combine e eI),
         map (fun p => etil_m (fst p) (snd p) (r_Rm r)) (combine e eI)).
Fixpoint each {A B} (f : A -> act B) (l : list A) : act (list B) :=
  match l with [] => ret [] | x :: l' => go y <- f x; go ys <- each f l'; ret (y :: ys) end.

(** utide/_solve.py:257-299 *)
Definition basis_mem (t : list R) (tref lor lat : R) (o : optr) (s : sel) : act (list (list (option C))) :=
  let g := flags_of o in
  if bad_empty_index g s then lift (Err IndexError) else
  go E <- ut_E_mem t tref (s_NRfrq s) (s_NRlind s) lat g;
  let B := map (fun r => r ++ map oconj r)%list E in
  go B <- match o_infer o with
          | None => ret B
          | Some inf =>
              go cols <- each (ref_columns_mem t tref lat g (inf_approx inf)) (s_R s);
              let B := fold_left hcat (map fst cols) B in
              ret (fold_left hcat (map (fun c => map oconj (snd c)) cols) B)
          end;
  let B := map (fun r => r ++ [Some (RtoC 1)])%list B in
  ret (if o_notrend o then B
       else hcat B (map (fun x => if Req_EM_T lor 0 then None else Some (RtoC ((x - tref) / lor))) t)).

(** utide/_solve.py:305-433, from the model matrix on: no argument and no table is used any more *)
Definition from_matrix (L : lib) (si : slv) (lat : R) (o : optr) (s : sel) (Bo : list (list (option C))) : res coef :=
  let xraw := raw_data (si_u si) (si_v si) in
  match finite_mat Bo with
  | None => Err LinAlgError
  | Some B =>
      do mW <- (if eq_str (o_method o) "ols" then
                  do r <- l_lstsq L B xraw PNone;
                  let '(m, _, _, _) := r in Ok (m, map (fun _ => Fin 1) (si_t si))
                else do r <- robustfit_kw L B xraw (o_robust_kw o); Ok (rf_b r, rf_w r));
      let '(m, W) := mW in
      let xmod := model_fit (o_twodim o) B m in
      let c := coef_core (si_tref si) (si_lor si) lat o s m W in
      let nm := (2 * (s_nNR s + s_nR s) + 1 + (if o_notrend o then 0 else 1))%nat in
      do c <- (if o_conf_int o then
                 do cis <- confidence L o s (si_tin si) (si_t si) (resid_parts (o_twodim o) W xraw xmod)
                                      (si_elor si) xraw xmod W B nm (conf_input (o_twodim o) m s);
                 Ok (set_ci c (o_twodim o) cis)
               else Ok c);
      do c <- (if o_nodiagn o then Ok c
               else do d <- diagn_of L c; do pe <- PE_of c; do snr <- SNR_of c;
                    Ok (set_diag c (Some pe) (Some snr) (Some d)));
      reorder L c (o_ordercnstit o)
  end.

(** utide/_solve.py:122-433 *)
Definition solve_mem (L : lib) (t : pyarr targ) (u : pyarr arr) (v : option (pyarr arr)) (lat : option R) (opts : dict pyval) : act coef :=
  go compat <- lift (process_opts opts (match v with Some _ => true | None => false end));
  go si <- slvinit_mem (l_parse L) t u v lat (oget compat "epoch");
  go lat <- lift (match lat with Some l => Ok l | None => Err ValueError end);
  go o <- lift (read_opt (slv_opts (match v with Some _ => true | None => false end) (si_equi si) compat));
  go s <- lift (ut_cnstitsel (si_tref si) (xdiv (Fin (o_rmin o)) (Fin (24 * si_lor si))) (o_cnstit o) (o_infer o));
  go Bo <- basis_mem (si_t si) (si_tref si) (si_lor si) lat o s;
  lift (from_matrix L si lat o s Bo).

(** ** utide/_reconstruct.py *)

Inductive series_ref := RScalar (h : arr) | RVector (u v : arr).
(** what reconstruct returns; utide/_reconstruct.py:62-90 *)
Record rec_refs := { rr_t_in : targ; rr_t_mpl : targ; rr_series : series_ref }.

(** [a[good] = l] and [a[good] += l] *)
Definition put_good (a : arr) (good : list bool) (l : list xr) : act unit := assign (compress good a) l.
Definition add_good (a : arr) (good : list bool) (l : list xr) : act unit :=
  go old <- fetch (compress good a); assign (compress good a) (map2 xadd old l).
Definition xpart (f : C -> R) (z : option C) : xr := xo (option_map f z).

(** utide/_reconstruct.py:93-172 (_reconstruct) *)
Definition reconstruct_core_mem (t : list R) (good : list bool) (c : coef) (constit : constit_arg)
    (min_SNR min_PE : R) : act series_ref :=
  go mask <- lift (rec_select c constit min_SNR min_PE);
  go pm <- lift (rec_pm c mask);
  go E <- ut_E_mem t (c_reftime c) (compress mask (c_frq c)) (compress mask (c_lind c)) (c_lat c) (flags_of (c_opt c));
  let fit := map (fun row => fit_row row pm) E in
  let trend := negb (o_notrend (c_opt c)) in
  let drift slope := map (fun x => Fin (slope * (x - c_reftime c))) t in
  go u <- alloc (map (fun _ => NaN) good);
  if o_twodim (c_opt c) then
    go v <- copy u;
    go um <- lift (key (c_umean c));
    go d1 <- put_good u good (map (fun z => xpart (fun f => fst f + um) z) fit);
    go vm <- lift (key (c_vmean c));
    go d2 <- put_good v good (map (fun z => xpart (fun f => snd f + vm) z) fit);
    go d3 <- (if trend then
                go us <- lift (key (c_uslope c));
                go d <- add_good u good (drift us);
                go vs <- lift (key (c_vslope c));
                add_good v good (drift vs)
              else ret tt);
    ret (RVector u v)
  else
    go mn <- lift (key (c_mean c));
    go d1 <- put_good u good (map (fun z => xpart (fun f => fst f + mn) z) fit);
    go d2 <- (if trend then go sl <- lift (key (c_slope c)); add_good u good (drift sl) else ret tt);
    ret (RScalar u).

(** utide/_reconstruct.py:8-90 (reconstruct) *)
Definition reconstruct_mem (L : lib) (t : targ) (ndim : nat) (c : coef) (epoch : pyval)
    (constit : constit_arg) (min_SNR min_PE : R) : act rec_refs :=
  if Nat.ltb 1 ndim then lift (Err ValueError)
  else
    go tn <- normalize_mem (l_parse L) t epoch;
    go tm <- masked_mem tn [];
    go s <- reconstruct_core_mem (somes tm) (goodmask tm) c constit min_SNR min_PE;
    ret {| rr_t_in := t; rr_t_mpl := (if eq_str epoch "python" then t else InPlace tn); rr_series := s |}.

(** ** a session: calls, and the caller writing to arrays of its own *)
Inductive step :=
| Solving (L : lib) (t : pyarr targ) (u : pyarr arr) (v : option (pyarr arr)) (lat : option R) (opts : dict pyval)
| Reconstructing (L : lib) (t : targ) (ndim : nat) (c : coef) (epoch : pyval) (constit : constit_arg) (min_SNR min_PE : R)
| Creating (l : list xr)
| Writing (a : arr) (l : list xr).
Definition run_step (m : mem) (s : step) : mem :=
  match s with
  | Solving L t u v lat opts => snd (solve_mem L t u v lat opts m)
  | Reconstructing L t ndim c epoch constit min_SNR min_PE => snd (reconstruct_mem L t ndim c epoch constit min_SNR min_PE m)
  | Creating l => snd (alloc l m)
  | Writing a l => store m a l
  end.
Definition run_steps (m : mem) (ss : list step) : mem := fold_left run_step ss m.
(** memory after the import of the package *)
Definition imported : mem :=
  store {| cell := fun _ => NaN; free := length sat_amprat |} table (map (fun q => Fin (Q2R q)) sat_amprat).
