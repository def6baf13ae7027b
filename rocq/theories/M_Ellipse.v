(** utide/ellipse_params.py (ut_cs2cep). *)
From Verif Require Import M_Base.
Open Scope R_scope.

(** utide/ellipse_params.py:56-62: scalar case; (Lsmaj, Lsmin, theta, g) *)
Definition cs2cep1 (Xu Yu : R) : R * R * R * R :=
  let ap : C := (Xu, - Yu) in
  (Cmod ap, 0, 0, pymod (- angle_deg ap) 360).

(** utide/ellipse_params.py:64-77: vector case *)
Definition cs2cep2 (Xu Yu Xv Yv : R) : R * R * R * R :=
  let ap : C := ((Xu + Yv) / 2, (Xv - Yu) / 2) in
  let am : C := ((Xu - Yv) / 2, (Xv + Yu) / 2) in
  let Ap := Cmod ap in
  let Am := Cmod am in
  let epsp := angle_deg ap in
  let epsm := angle_deg am in
  let theta := pymod ((epsp + epsm) / 2) 180 in
  let g := pymod (- epsp + theta) 360 in
  (Ap + Am, Ap - Am, theta, g).

Definition e_maj (p : R * R * R * R) : R := fst (fst (fst p)).
Definition e_min (p : R * R * R * R) : R := snd (fst (fst p)).
Definition e_theta (p : R * R * R * R) : R := snd (fst p).
Definition e_g (p : R * R * R * R) : R := snd p.

(** utide/ellipse_params.py:47-54: rows of a (n,2) or (n,4) array *)
Definition cs2cep_row (row : list R) : res (R * R * R * R) :=
  match row with
  | [Xu; Yu] => Ok (cs2cep1 Xu Yu)
  | [Xu; Yu; Xv; Yv] => Ok (cs2cep2 Xu Yu Xv Yv)
  | _ => Err ValueError
  end.
Definition cs2cep_mat (rows : list (list R)) : res (list (R * R * R * R)) := mapM cs2cep_row rows.
