(** Specification vocabulary for objects shared between the caller, the package and its results. *)
From Verif Require Import M_Base M_Options M_State S_Dict.
Open Scope string_scope.

(** an object that is used for the option infer and for no other *)
Definition only_infer (l : nat) (opts : list (string * arg)) : Prop := forall k, In (k, Object l) opts -> k = "infer".

(** the items of an inference object after the missing choice of approximate has been written to it *)
Definition completed (d : list (string * pyval)) : list (string * pyval) := (d ++ [("approximate", PBool false)])%list.

(** the result of a call of solve, without the references *)
Definition coefficients {A B} (r : res (A * B)) : res A := match r with Ok p => Ok (fst p) | Err e => Err e end.

(** the options of an optr that are references in the result of solve, replaced *)
Definition with_shared (inf : option infer_r) (kw : pyval) (o : optr) : optr :=
  {| o_twodim := o_twodim o; o_equi := o_equi o; o_conf_int := o_conf_int o; o_cnstit := o_cnstit o; o_notrend := o_notrend o; o_nodsatlint := o_nodsatlint o;
     o_nodsatnone := o_nodsatnone o; o_gwchlint := o_gwchlint o; o_gwchnone := o_gwchnone o; o_infer := inf; o_rmin := o_rmin o; o_linci := o_linci o;
     o_white := o_white o; o_nrlzn := o_nrlzn o; o_nodiagn := o_nodiagn o; o_ordercnstit := o_ordercnstit o; o_method := o_method o; o_robust_kw := kw; o_epoch := o_epoch o |}.
