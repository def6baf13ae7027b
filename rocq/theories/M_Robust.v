(** utide/robustfit.py. *)
From Verif Require Import M_Base M_Lib.
Open Scope R_scope.
Open Scope string_scope.

Definition all_finite (l : list xr) : option (list R) := all_some (map finite l).

(** ** Sorting and medians *)
Fixpoint insert_by {A} (le : A -> A -> bool) (x : A) (l : list A) : list A :=
  match l with
  | [] => [x]
  | y :: l' => if le x y then x :: l else y :: insert_by le x l'
  end.
Definition sort_by {A} (le : A -> A -> bool) (l : list A) : list A := fold_right (insert_by le) [] l.

Definition rle (a b : R) : bool := if Rle_dec a b then true else false.
(** numpy orders complex numbers by real, then imaginary part *)
Definition cle (a b : C) : bool :=
  if Rlt_dec (fst a) (fst b) then true
  else if Rlt_dec (fst b) (fst a) then false
  else rle (snd a) (snd b).

(** the middle element, or the two middle elements, of a sorted list (non-empty) *)
Definition mid {A} (d : A) (s : list A) : A * A :=
  let n := length s in (nth ((n - 1) / 2) s d, nth (n / 2) s d).

(** [np.median] of a non-empty real array *)
Definition median (l : list R) : R := let (a, b) := mid 0 (sort_by rle l) in (a + b) / 2.
(** [np.median] of a non-empty complex array *)
Definition cmedian (l : list C) : C :=
  let (a, b) := mid (RtoC 0) (sort_by cle l) in Cdiv (Cplus a b) (RtoC 2).

(** utide/robustfit.py:89-94 (sigma_hat), for a complex array *)
Definition sigma_hat (x : list C) : R :=
  median (map (fun z => Cmod (Cminus z (cmedian x))) x) / (6745 / 10^4).

(** utide/robustfit.py:97-112 (leverage) *)
Definition col {A} (d : A) (M : list (list A)) (j : nat) : list A := map (fun row => nth j row d) M.
Definition leverage (L : lib) (X : cmat) : res (list R) :=
  do P <- l_pinv L X;
  Ok (map (fun p => Cmod (cdot (snd p) (col (RtoC 0) P (fst p)))) (enumerate X)).

(** utide/robustfit.py:115-119 (r_normed), followed by the np.abs with which every weight function begins:
    magnitudes of rfac * R / sigma_hat(R) *)
Definition r_normed (resid : list C) (rfac : list xr) : list xr :=
  let s := sigma_hat resid in
  map (fun p => xabs (xdiv (xmul (snd p) (Fin (Cmod (fst p)))) (Fin s))) (combine resid rfac).

(** ** Weight functions (of the magnitude r = |r_normed|), utide/robustfit.py:12-61 *)
Definition xbool (b : bool) : xr := Fin (if b then 1 else 0).
Definition xexp (x : xr) : xr :=
  match x with Fin a => Fin (exp a) | PInf => PInf | NInf => Fin 0 | NaN => NaN end.
Definition x1 : xr := Fin 1.

(** utide/robustfit.py:19-22 *)
Definition w_bisquare (r : xr) : xr := xmul (xbool (xlt r x1)) (xsq (xsub x1 (xsq r))).
(** utide/robustfit.py:25-28 *)
Definition w_cauchy (r : xr) : xr := xdiv x1 (xadd x1 (xsq r)).
(** utide/robustfit.py:31-33 *)
Definition w_fair (r : xr) : xr := xdiv x1 (xadd x1 r).
(** utide/robustfit.py:48-50 *)
Definition w_ols (r : xr) : xr := x1.
(** utide/robustfit.py:53-55 *)
Definition w_talwar (r : xr) : xr := xbool (xlt r x1).
(** utide/robustfit.py:58-61 *)
Definition w_welsch (r : xr) : xr := xexp (xneg (xsq r)).

(** andrews, huber and logistic (utide/robustfit.py:12-16, 36-38, 41-45) call Python's [max] on a
    scalar and an array, which needs the truth value of an array: ValueError for two or more
    elements.  For at most one element (never reached by robustfit, see lstsq's residual) the value
    is not modelled and reported as the same error. *)
Definition wfunc (name : string) : res (list xr -> res (list xr)) :=
  if String.eqb name "andrews" then Ok (fun _ => Err ValueError)
  else if String.eqb name "bisquare" then Ok (fun r => Ok (map w_bisquare r))
  else if String.eqb name "cauchy" then Ok (fun r => Ok (map w_cauchy r))
  else if String.eqb name "fair" then Ok (fun r => Ok (map w_fair r))
  else if String.eqb name "huber" then Ok (fun _ => Err ValueError)
  else if String.eqb name "logistic" then Ok (fun _ => Err ValueError)
  else if String.eqb name "ols" then Ok (fun r => Ok (map w_ols r))
  else if String.eqb name "talwar" then Ok (fun r => Ok (map w_talwar r))
  else if String.eqb name "welsch" then Ok (fun r => Ok (map w_welsch r))
  else Err KeyError.

(** utide/robustfit.py:76-86 *)
Definition tune_defaults : dict R :=
  [("andrews", 1339 / 10^3); ("bisquare", 4685 / 10^3); ("cauchy", 2385 / 10^3);
   ("fair", 1400 / 10^3); ("huber", 1345 / 10^3); ("logistic", 1205 / 10^3); ("ols", 1);
   ("talwar", 2795 / 10^3); ("welsch", 2985 / 10^3)].

(** ** The iteration, utide/robustfit.py:122-260 *)

Record lsres := { ls_b : list C; ls_rsumsq : R; ls_rank : nat; ls_sing : list R }.

Inductive stop := Worse | Converged | Exhausted.

Record rf := {
  rf_b : list C;
  rf_w : list xr;
  rf_s : list R;
  rf_rank : nat;
  rf_rms_resid : R;
  rf_leverage : list R;
  rf_ols_b : list C;
  rf_ols_rms_resid : R;
  rf_iterations : nat;
  rf_stop : stop       (* ghost: how the loop ended *)
}.

(** utide/robustfit.py:205-208: one weighted least-squares solve; lstsq on non-finite input raises
    LinAlgError *)
Definition wsolve (L : lib) (X : cmat) (y : list C) (rcond : pyval) (w : list xr) : res lsres :=
  match all_finite w with
  | None => Err LinAlgError
  | Some w =>
      do r <- l_lstsq L (map (fun p => map (Cmult (RtoC (fst p))) (snd p)) (combine w X))
                        (map (fun p => Cmult (RtoC (fst p)) (snd p)) (combine w y)) rcond;
      let '(b, rss, rank, sing) := r in
      match rss with
      | [] => Err IndexError
      | s :: _ => Ok {| ls_b := b; ls_rsumsq := s; ls_rank := rank; ls_sing := sing |}
      end
  end.

(** utide/robustfit.py:239 *)
Definition residual (X : cmat) (y : list C) (b : list C) : list C :=
  map (fun p => Cminus (fst p) (snd p)) (combine y (cmatvec X b)).

(** What the loop carries from one iteration to the next. *)
Record iter := {
  it_ls : lsres;        (* oldlstsq *)
  it_w : list xr;       (* oldw *)
  it_meansq : xr;       (* oldrmeansq *)
  it_resid : list C     (* resid *)
}.

(** utide/robustfit.py:204-242, from iteration [i] on; [w] are the current weights.
    Result: final solve, final weights, last [resid], [iterations], how it stopped. *)
Fixpoint rf_loop (L : lib) (X : cmat) (y : list C) (rcond : pyval) (tol : R)
    (wf : list xr -> res (list xr)) (rfac : list xr)
    (fuel i : nat) (w : list xr) (old : option iter)
  : res (lsres * list xr * list C * nat * stop) :=
  match fuel with
  | O => match old with
         | None => Err NameError      (* maxit = 0: resid is unbound at line 247 *)
         | Some o => Ok (it_ls o, w, it_resid o, O, Exhausted)
         end
  | S fuel' =>
      do ls <- wsolve L X y rcond w;
      let meansq := xdiv (Fin (ls_rsumsq ls)) (xsum w) in
      let continue :=
        let resid := residual X y (ls_b ls) in
        do w' <- wf (r_normed resid rfac);
        rf_loop L X y rcond tol wf rfac fuel' (S i) w'
                (Some {| it_ls := ls; it_w := w; it_meansq := meansq; it_resid := resid |}) in
      match old with
      | None => continue
      | Some o =>
          let improvement := xdiv (xsub (it_meansq o) meansq) (it_meansq o) in
          if xlt improvement (Fin 0) then Ok (it_ls o, it_w o, it_resid o, i, Worse)
          else if xlt improvement (Fin tol) then Ok (ls, w, it_resid o, S i, Converged)
          else continue
      end
  end.

(** mean of squared moduli, utide/robustfit.py:247 *)
Definition rms (r : list C) : R :=
  sqrt (rsum (map (fun z => Cmod z * Cmod z) r) / INR (length r)).

(** utide/robustfit.py:122-260 with all keyword arguments given *)
Definition robustfit (L : lib) (X : cmat) (y : list C) (weight_function : string)
    (tune : option R) (rcond : pyval) (tol : R) (maxit : nat) : res rf :=
  do tune <- match tune with
             | Some t => Ok t
             | None => match dget tune_defaults weight_function with
                       | Some t => Ok t | None => Err KeyError end
             end;
  do wf <- wfunc weight_function;
  do lev <- leverage L X;
  let rfac := map (fun h => xdiv x1 (xmul (Fin tune) (xsqrt (Fin (1 - h))))) lev in
  let w0 := map (fun _ => x1) y in
  do first <- (match maxit with O => Err NameError | _ => wsolve L X y rcond w0 end);
  do r <- rf_loop L X y rcond tol wf rfac maxit 0 w0 None;
  let '(ls, w, resid, iters, st) := r in
  Ok {| rf_b := ls_b ls; rf_w := w; rf_s := ls_sing ls; rf_rank := ls_rank ls;
        rf_rms_resid := rms resid; rf_leverage := lev;
        rf_ols_b := ls_b first;
        rf_ols_rms_resid := sqrt (ls_rsumsq first / INR (length X));
        rf_iterations := (if Nat.eqb iters 0 then maxit else iters);
        rf_stop := st |}.

(** [robustfit(B, xraw, **robust_kw)]; utide/_solve.py:319 with the defaults of
    utide/robustfit.py:122-130.  Unknown keywords are TypeError; a non-integer maxit is TypeError;
    a negative maxit means no iteration. *)
Definition kw_nat (v : pyval) : res nat :=
  match v with
  | PNum x => if Req_EM_T x (IZR (Int_part x)) then Ok (Z.to_nat (Int_part x)) else Err TypeError
  | PBool b => Ok (if b then 1%nat else 0%nat)
  | _ => Err TypeError
  end.
Definition kw_num (v : pyval) : res R :=
  match v with PNum x => Ok x | PBool b => Ok (if b then 1 else 0) | _ => Err TypeError end.
Definition robust_keys : list string := ["weight_function"; "tune"; "rcond"; "tol"; "maxit"].
Definition kget (d : dict pyval) (k : string) (default : pyval) : pyval :=
  match dget d k with Some v => v | None => default end.
Definition robustfit_kw (L : lib) (X : cmat) (y : list C) (kw : pyval) : res rf :=
  match kw with
  | PDict _ d =>
      if negb (forallb (fun k => existsb (String.eqb k) robust_keys) (dkeys d)) then Err TypeError
      else
        do wf <- match kget d "weight_function" (PStr "bisquare") with
                 | PStr s => Ok s | _ => Err KeyError end;
        do tune <- match kget d "tune" PNone with
                   | PNone => Ok None
                   | v => do x <- kw_num v; Ok (Some x)
                   end;
        do tol <- kw_num (kget d "tol" (PNum (1 / 10^3)));
        do maxit <- kw_nat (kget d "maxit" (PNum 50));
        robustfit L X y wf tune (kget d "rcond" (PNum 1)) tol maxit
  | _ => Err TypeError
  end.
