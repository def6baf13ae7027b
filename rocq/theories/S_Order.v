(** Specification vocabulary for the order of constituents. *)
From Coq Require Import Sorting Permutation.
From Verif Require Import M_Base M_Lib M_Diag S_Dict.
Open Scope R_scope.

(** numpy's sort order: NaN after everything else *)
Definition xle (a b : xr) : Prop := b = NaN \/ (a <> NaN /\ b <> NaN /\ xge b a = true).

(** what is assumed of ndarray.argsort: a permutation of the indices that sorts the values
    (the order of ties is left open) *)
Definition argsort_perm (L : lib) : Prop :=
  forall l, Permutation (l_argsort L l) (seq 0 (length l)).
Definition argsort_sorts (L : lib) : Prop :=
  forall l, StronglySorted xle (map (fun i => nth i l NaN) (l_argsort L l)).

(** One constituent in a result: everything reported for it except PE and SNR. *)
Record crow := {
  w_name : option string; w_frq : option R; w_lind : option nat; w_g : option R;
  w_A : option (option R); w_Lsmaj : option (option R); w_Lsmin : option (option R);
  w_theta : option (option R);
  w_g_ci : option (option xr); w_A_ci : option (option xr); w_Lsmaj_ci : option (option xr);
  w_Lsmin_ci : option (option xr); w_theta_ci : option (option xr) }.

Definition at_ {A} (o : option (list A)) (i : nat) : option (option A) := option_map (fun l => nth_error l i) o.

Definition crow_of (c : coef) (i : nat) : crow :=
  {| w_name := nth_error (c_name c) i; w_frq := nth_error (c_frq c) i; w_lind := nth_error (c_lind c) i;
     w_g := nth_error (c_g c) i; w_A := at_ (c_A c) i; w_Lsmaj := at_ (c_Lsmaj c) i;
     w_Lsmin := at_ (c_Lsmin c) i; w_theta := at_ (c_theta c) i; w_g_ci := at_ (c_g_ci c) i;
     w_A_ci := at_ (c_A_ci c) i; w_Lsmaj_ci := at_ (c_Lsmaj_ci c) i; w_Lsmin_ci := at_ (c_Lsmin_ci c) i;
     w_theta_ci := at_ (c_theta_ci c) i |}.

(** all constituents of a result, in its order *)
Definition rows (c : coef) : list crow := map (crow_of c) (seq 0 (length (c_name c))).
(** the same with PE and SNR *)
Definition drow_of (c : coef) (i : nat) := (crow_of c i, at_ (c_PE c) i, at_ (c_SNR c) i).
Definition drows (c : coef) := map (drow_of c) (seq 0 (length (c_name c))).

(** every per-constituent array has one entry per name *)
Definition len_ok {A} (n : nat) (o : option (list A)) : Prop := forall l, o = Some l -> length l = n.
Definition aligned (c : coef) : Prop :=
  let n := length (c_name c) in
  length (c_frq c) = n /\ length (c_lind c) = n /\ length (c_g c) = n /\
  len_ok n (c_A c) /\ len_ok n (c_Lsmaj c) /\ len_ok n (c_Lsmin c) /\ len_ok n (c_theta c) /\
  len_ok n (c_g_ci c) /\ len_ok n (c_A_ci c) /\ len_ok n (c_Lsmaj_ci c) /\ len_ok n (c_Lsmin_ci c) /\
  len_ok n (c_theta_ci c) /\ len_ok n (c_PE c) /\ len_ok n (c_SNR c).

(** the orders that keep all constituents *)
Definition sorted_order (o : pyval) : Prop :=
  o = PNone \/ o = PStr "PE" \/ o = PStr "SNR" \/ o = PStr "frequency".

(** results that agree in everything but the order of the constituents and the option itself *)
Record same_result (a b : coef) : Prop := {
  sr_rows : Permutation (rows a) (rows b);
  sr_reftime : c_reftime a = c_reftime b; sr_lat : c_lat a = c_lat b;
  sr_weights : c_weights a = c_weights b;
  sr_mean : c_mean a = c_mean b; sr_slope : c_slope a = c_slope b;
  sr_umean : c_umean a = c_umean b; sr_vmean : c_vmean a = c_vmean b;
  sr_uslope : c_uslope a = c_uslope b; sr_vslope : c_vslope a = c_vslope b;
  sr_diagn : c_diagn a = c_diagn b }.

(** energy of a constituent: Lsmaj^2 + Lsmin^2 or A^2 *)
Definition energy (r : crow) : R :=
  match w_Lsmaj r, w_Lsmin r, w_A r with
  | Some (Some a), Some (Some b), _ => a * a + b * b
  | None, _, Some (Some a) => a * a
  | _, _, _ => 0
  end.
Definition total (c : coef) : R := fold_right Rplus 0 (map energy (rows c)).
(** percent of the total, NaN when there is no energy at all *)
Definition share (e tot : R) : xr := if Req_EM_T tot 0 then NaN else Fin (100 * e / tot).
(** noise energy from the 95 percent intervals of the axes (amplitude) *)
Definition noise_energy (r : crow) : xr :=
  let q x := xmul (xdiv x (Fin (196 / 100))) (xdiv x (Fin (196 / 100))) in
  match w_Lsmaj r, w_Lsmaj_ci r, w_Lsmin_ci r, w_A_ci r with
  | Some _, Some (Some a), Some (Some b), _ => xadd (q a) (q b)
  | None, _, _, Some (Some a) => q a
  | _, _, _, _ => NaN
  end.
Definition snr (r : crow) : xr := xdiv (Fin (energy r)) (noise_energy r).

(** non-increasing (non-decreasing); NaN entries are not compared *)
Definition non_increasing (l : list xr) : Prop :=
  forall i j x y, (i < j)%nat -> nth_error l i = Some x -> nth_error l j = Some y ->
    x <> NaN -> y <> NaN -> xge x y = true.
Definition non_decreasing (l : list R) : Prop :=
  forall i j x y, (i < j)%nat -> nth_error l i = Some x -> nth_error l j = Some y -> x <= y.
