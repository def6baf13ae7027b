(** The coefficient structure, utide/diagnostics.py and utide/_solve.py:436-462 (_reorder). *)
From Verif Require Import M_Base M_Lib M_Options M_Select.
Open Scope R_scope.
Open Scope string_scope.

(** coef: the Bunch returned by solve.  Keys that may be absent are options. *)
Record coef := {
  c_name : list string;
  c_frq : list R;                 (* aux.frq *)
  c_lind : list nat;              (* aux.lind *)
  c_reftime : R;                  (* aux.reftime *)
  c_lat : R;                      (* aux.lat *)
  c_opt : optr;                   (* aux.opt *)
  c_nNR : nat;
  c_nR : nat;
  c_nI : nat;
  c_weights : list xr;
  c_g : list R;
  c_A : option (list R);
  c_Lsmaj : option (list R);
  c_Lsmin : option (list R);
  c_theta : option (list R);
  c_mean : option R;
  c_slope : option R;
  c_umean : option R;
  c_vmean : option R;
  c_uslope : option R;
  c_vslope : option R;
  c_g_ci : option (list xr);
  c_A_ci : option (list xr);
  c_Lsmaj_ci : option (list xr);
  c_Lsmin_ci : option (list xr);
  c_theta_ci : option (list xr);
  c_PE : option (list xr);
  c_SNR : option (list xr);
  c_diagn : option (list string * list xr * list xr)   (* diagn.name, .PE, .SNR *)
}.

(** [coef[key]] for a key that may be missing *)
Definition key {A} (o : option A) : res A := match o with Some x => Ok x | None => Err KeyError end.

Definition map2 {A B D} (f : A -> B -> D) (a : list A) (b : list B) : list D :=
  map (fun p => f (fst p) (snd p)) (combine a b).

(** energies A^2 or Lsmaj^2 + Lsmin^2; utide/diagnostics.py:8-12, 20-25 *)
Definition energies (c : coef) : res (list R) :=
  match c_Lsmaj c with
  | Some maj => do mi <- key (c_Lsmin c); Ok (map2 (fun a b => Rsqr a + Rsqr b) maj mi)
  | None => do a <- key (c_A c); Ok (map Rsqr a)
  end.

(** utide/diagnostics.py:4-13 (_PE) *)
Definition PE_of (c : coef) : res (list xr) :=
  do E <- energies c;
  Ok (match c_Lsmaj c with
      | Some _ => map (fun e => xmul (xdiv (Fin 100) (Fin (rsum E))) (Fin e)) E
      | None => map (fun e => xdiv (Fin (100 * e)) (Fin (rsum E))) E
      end).

Definition ci_sq (x : xr) : xr := xsq (xdiv x (Fin (196 / 100))).

(** noise energies: utide/diagnostics.py:21-25 *)
Definition noises (c : coef) : res (list xr) :=
  match c_Lsmaj c with
  | Some _ => do a <- key (c_Lsmaj_ci c); do b <- key (c_Lsmin_ci c);
              Ok (map2 (fun x y => xadd (ci_sq x) (ci_sq y)) a b)
  | None => do a <- key (c_A_ci c); Ok (map ci_sq a)
  end.

(** utide/diagnostics.py:16-26 (_SNR) *)
Definition SNR_of (c : coef) : res (list xr) :=
  do E <- energies c; do N <- noises c; Ok (map2 (fun e n => xdiv (Fin e) n) E N).

(** utide/diagnostics.py:29-44 (ut_diagn) *)
Definition diagn_of (L : lib) (c : coef) : res (list string * list xr * list xr) :=
  do PE <- PE_of c;
  do SNR <- SNR_of c;
  let ind := rev (l_argsort L PE) in
  do n <- take_idx (c_name c) ind;
  do p <- take_idx PE ind;
  do s <- take_idx SNR ind;
  Ok (n, p, s).

(** record updates *)
Definition set_diag (c : coef) (pe snr : option (list xr))
    (d : option (list string * list xr * list xr)) : coef :=
  {| c_name := c_name c; c_frq := c_frq c; c_lind := c_lind c; c_reftime := c_reftime c;
     c_lat := c_lat c; c_opt := c_opt c; c_nNR := c_nNR c; c_nR := c_nR c; c_nI := c_nI c;
     c_weights := c_weights c; c_g := c_g c; c_A := c_A c; c_Lsmaj := c_Lsmaj c;
     c_Lsmin := c_Lsmin c; c_theta := c_theta c; c_mean := c_mean c; c_slope := c_slope c;
     c_umean := c_umean c; c_vmean := c_vmean c; c_uslope := c_uslope c; c_vslope := c_vslope c;
     c_g_ci := c_g_ci c; c_A_ci := c_A_ci c; c_Lsmaj_ci := c_Lsmaj_ci c; c_Lsmin_ci := c_Lsmin_ci c;
     c_theta_ci := c_theta_ci c; c_PE := pe; c_SNR := snr; c_diagn := d |}.

(** [a if a in coef]: index an array that may be absent *)
Definition take_opt {A} (o : option (list A)) (ind : list nat) : res (option (list A)) :=
  match o with None => Ok None | Some l => do l' <- take_idx l ind; Ok (Some l') end.

(** utide/_solve.py:454-462: apply one index list to every per-constituent array *)
Definition apply_order (c : coef) (ind : list nat) : res coef :=
  do name <- take_idx (c_name c) ind;
  do pe <- take_opt (c_PE c) ind;
  do snr <- take_opt (c_SNR c) ind;
  do a <- take_opt (c_A c) ind;
  do aci <- take_opt (c_A_ci c) ind;
  do g <- take_idx (c_g c) ind;
  do gci <- take_opt (c_g_ci c) ind;
  do maj <- take_opt (c_Lsmaj c) ind;
  do majci <- take_opt (c_Lsmaj_ci c) ind;
  do mi <- take_opt (c_Lsmin c) ind;
  do mici <- take_opt (c_Lsmin_ci c) ind;
  do th <- take_opt (c_theta c) ind;
  do thci <- take_opt (c_theta_ci c) ind;
  do frq <- take_idx (c_frq c) ind;
  do lind <- take_idx (c_lind c) ind;
  Ok {| c_name := name; c_frq := frq; c_lind := lind; c_reftime := c_reftime c;
        c_lat := c_lat c; c_opt := c_opt c; c_nNR := c_nNR c; c_nR := c_nR c; c_nI := c_nI c;
        c_weights := c_weights c; c_g := g; c_A := a; c_Lsmaj := maj;
        c_Lsmin := mi; c_theta := th; c_mean := c_mean c; c_slope := c_slope c;
        c_umean := c_umean c; c_vmean := c_vmean c; c_uslope := c_uslope c; c_vslope := c_vslope c;
        c_g_ci := gci; c_A_ci := aci; c_Lsmaj_ci := majci; c_Lsmin_ci := mici;
        c_theta_ci := thci; c_PE := pe; c_SNR := snr; c_diagn := c_diagn c |}.

(** [namelist.index(name)]: ValueError if absent *)
Definition name_index (names : list string) (n : string) : res nat :=
  match find_index (String.eqb n) names with Some i => Ok i | None => Err ValueError end.

(** names in a user-supplied order sequence (a non-string is not in the list) *)
Definition order_names (v : pyval) : res (list string) :=
  match v with
  | PSeq l => mapM (fun x => match x with PStr s => Ok s | _ => Err ValueError end) l
  | PDict _ d => Ok (dkeys d)
  | PStr s => Ok (map (fun c => String c EmptyString) (list_ascii_of_string s))
  | _ => Err TypeError
  end.

(** utide/_solve.py:436-462 (_reorder) *)
Definition reorder (L : lib) (c : coef) (ordercnstit : pyval) : res coef :=
  do ci <- (if eq_str ordercnstit "PE" then
              do c' <- (match c_PE c with
                        | Some _ => Ok c
                        | None => do pe <- PE_of c; Ok (set_diag c (Some pe) (c_SNR c) (c_diagn c))
                        end);
              do pe <- key (c_PE c');
              Ok (c', rev (l_argsort L pe))
            else if eq_str ordercnstit "frequency" then
              Ok (c, l_argsort L (map Fin (c_frq c)))
            else if eq_str ordercnstit "SNR" then
              do snr <- key (c_SNR c);
              Ok (c, rev (l_argsort L snr))
            else
              do names <- order_names ordercnstit;
              do ind <- mapM (name_index (c_name c)) names;
              Ok (c, ind));
  apply_order (fst ci) (snd ci).
