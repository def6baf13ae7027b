(** utide/_solve.py:16-119: default options, option processing and validation. *)
From Verif Require Import M_Base M_Bunch.
Open Scope R_scope.
Open Scope string_scope.

(** utide/_solve.py:16-31 *)
Definition default_opts : dict pyval :=
  [("constit", PStr "auto");
   ("order_constit", PNone);
   ("conf_int", PStr "linear");
   ("method", PStr "ols");
   ("trend", PBool true);
   ("phase", PStr "Greenwich");
   ("nodal", PBool true);
   ("infer", PNone);
   ("MC_n", PNum 200);
   ("Rayleigh_min", PNum 1);
   ("robust_kw", PDict false [("weight_function", PStr "cauchy")]);
   ("white", PBool false);
   ("verbose", PBool true);
   ("epoch", PNone)].

(** utide/_solve.py:91 *)
Definition required_keys : list string :=
  ["inferred_names"; "reference_names"; "amp_ratios"; "phase_offsets"].

(** [len(x)] of a Python value *)
Definition pylen (v : pyval) : res nat :=
  match v with
  | PStr s => Ok (String.length s)
  | PSeq l => Ok (length l)
  | PDict _ d => Ok (length d)
  | _ => Err TypeError
  end.

(** set comparison [keys < required]: proper subset *)
Definition mem_str (k : string) (l : list string) : bool := existsb (String.eqb k) l.
Definition proper_subset (a b : list string) : bool :=
  forallb (fun k => mem_str k b) a && negb (forallb (fun k => mem_str k a) b).

(** Attribute access on the inference object: only a Bunch has attributes for its items. *)
Definition infer_attr (is_bunch : bool) (d : dict pyval) (k : string) : res pyval :=
  if is_bunch then
    match bunch_getattr d k with
    | Ok (AItem v) => Ok v
    | Ok (AMethod _) => Err TypeError
    | Err e => Err e
    end
  else Err AttributeError.

(** utide/_solve.py:88-103 (validate_infer).  The result is the object after validation
    (the same object that the caller passed).  The f-string at line 94 formats a set with the
    code "s", which raises TypeError before the ValueError can be built. *)
Definition validate_infer (infer : pyval) (is_2D : bool) : res pyval :=
  if is_none infer || eq_str infer "none" then Ok PNone
  else match infer with
  | PDict b d =>
      if proper_subset (dkeys d) required_keys then Err TypeError
      else
        do names <- infer_attr b d "inferred_names";
        do nI <- pylen names;
        do refs <- infer_attr b d "reference_names";
        do nref <- pylen refs;
        if negb (Nat.eqb nref nI) then Err ValueError
        else
          let nratios := if is_2D then (2 * nI)%nat else nI in
          do amps <- infer_attr b d "amp_ratios";
          do namp <- pylen amps;
          if negb (Nat.eqb namp nratios) then Err ValueError
          else
            do offs <- infer_attr b d "phase_offsets";
            do noff <- pylen offs;
            if negb (Nat.eqb noff nratios) then Err ValueError
            else
              Ok (PDict b (if dmem d "approximate" then d
                           else dset d "approximate" (PBool false)))
  | _ => Err AttributeError   (* no .keys() *)
  end.

(** utide/_solve.py:106-119 (validate_order_constit) *)
Definition validate_order_constit (arg : pyval) (have_snr : bool) : res pyval :=
  let available := (["PE"; "frequency"] ++ (if have_snr then ["SNR"] else []))%list in
  match arg with
  | PNone => Ok (PStr "PE")
  | PStr s => if mem_str s available then Ok arg else Err ValueError
  | PSeq _ | PDict _ _ => Ok arg
  | _ => Err ValueError
  end.

(** [opts.key] for a key that is present in the processed options *)
Definition oget (d : dict pyval) (k : string) : pyval :=
  match dget d k with Some v => v | None => PNone end.

(** utide/_solve.py:47-85 (_translate_opts), the assignments in source order.
    The misspelt keys "nodesatlint"/"nodesatnone" (lines 67-68) are the code's. *)
Definition translate_opts (opts : dict pyval) : res (dict pyval) :=
  let o := [("cnstit", oget opts "constit");
            ("ordercnstit", oget opts "order_constit");
            ("infer", oget opts "infer");
            ("conf_int", PBool true)] in
  do o <- (let ci := oget opts "conf_int" in
           if eq_str ci "linear" then Ok (dset o "linci" (PBool true))
           else if eq_str ci "MC" then Ok (dset o "linci" (PBool false))
           else if eq_str ci "none" then
             Ok (dset (dset o "conf_int" (PBool false)) "nodiagn" (PNum 1))
           else Err ValueError);
  let o := dset o "notrend" (PBool (negb (truthy (oget opts "trend")))) in
  let o := dset o "nodesatlint" (PBool false) in
  let o := dset o "nodesatnone" (PBool false) in
  let o := dset o "gwchlint" (PBool false) in
  let o := dset o "gwchnone" (PBool false) in
  let o := if eq_str (oget opts "nodal") "linear_time" then dset o "nodsatlint" (PBool true)
           else if negb (truthy (oget opts "nodal")) then dset o "nodsatnone" (PBool true)
           else o in
  let o := if eq_str (oget opts "phase") "linear_time" then dset o "gwchlint" (PBool true)
           else if eq_str (oget opts "phase") "raw" then dset o "gwchnone" (PBool true)
           else o in
  let o := dset o "rmin" (oget opts "Rayleigh_min") in
  let o := dset o "white" (oget opts "white") in
  let o := dset o "newopts" (PDict true opts) in
  let o := dset o "RunTimeDisp" (oget opts "verbose") in
  let o := dset o "epoch" (oget opts "epoch") in
  Ok o.

(** utide/_solve.py:34-44 (_process_opts).  A keyword "strict" would be passed twice to
    update_values (TypeError). *)
Definition process_opts (opts : dict pyval) (is_2D : bool) : res (dict pyval) :=
  if dmem opts "strict" then Err TypeError
  else
    let (newopts, ok) := update_values (bunch_init [default_opts] []) []
                           (dset opts "strict" (PBool true)) in
    do _ <- ok;
    do inf <- validate_infer (oget newopts "infer") is_2D;
    let newopts := dset newopts "infer" inf in
    let snr := negb (eq_str (oget newopts "conf_int") "none") in
    do ord <- validate_order_constit (oget newopts "order_constit") snr;
    let newopts := dset newopts "order_constit" ord in
    translate_opts newopts.

(** utide/_solve.py:477, 518/524, 530-560: the default "opt" dictionary of _slvinit, overwritten by
    every translated option.  (prefilt is an empty list; it is unused.) *)
Definition slv_opts (twodim equi : bool) (compat : dict pyval) : dict pyval :=
  dupdate
    [("twodim", PBool twodim); ("equi", PBool equi);
     ("conf_int", PBool true); ("cnstit", PStr "auto"); ("notrend", PNum 0);
     ("prefilt", PSeq []); ("nodsatlint", PNum 0); ("nodsatnone", PNum 0);
     ("gwchlint", PNum 0); ("gwchnone", PNum 0); ("infer", PNone); ("inferaprx", PNum 0);
     ("rmin", PNum 1); ("method", PStr "ols"); ("tunrdn", PNum 1); ("linci", PBool false);
     ("white", PNum 0); ("nrlzn", PNum 200); ("lsfrqosmp", PNum 1); ("nodiagn", PNum 0);
     ("diagnplots", PNum 0); ("diagnminsnr", PNum 2); ("ordercnstit", PNone);
     ("runtimedisp", PStr "yyy")]
    compat.

(** ** Typed view of the option dictionary used by the rest of the model *)

(** The validated inference object (utide/_solve.py:168-183). *)
Record infer_r := {
  inf_inferred : list string;
  inf_reference : list string;
  inf_amp : list R;
  inf_off : list R;
  inf_approx : bool
}.

(** iterating over a value that should contain names; a non-string name is an unknown key *)
Definition as_names (v : pyval) : res (list string) :=
  match v with
  | PSeq l => mapM (fun x => match x with PStr s => Ok s | _ => Err KeyError end) l
  | PStr s => Ok (map (fun c => String c EmptyString) (list_ascii_of_string s))
  | PDict _ d => Ok (dkeys d)
  | _ => Err TypeError
  end.

Definition as_num (v : pyval) : res R :=
  match v with PNum x => Ok x | PBool b => Ok (if b then 1 else 0) | _ => Err TypeError end.

Definition as_nums (v : pyval) : res (list R) :=
  match v with PSeq l => mapM as_num l | _ => Err TypeError end.

Definition read_infer (v : pyval) : res (option infer_r) :=
  match v with
  | PDict b d =>
      do i <- as_names (oget d "inferred_names");
      do r <- as_names (oget d "reference_names");
      do a <- as_nums (oget d "amp_ratios");
      do o <- as_nums (oget d "phase_offsets");
      Ok (Some {| inf_inferred := i; inf_reference := r; inf_amp := a; inf_off := o;
                  inf_approx := truthy (oget d "approximate") |})
  | _ => Ok None
  end.

Record optr := {
  o_twodim : bool;
  o_equi : bool;
  o_conf_int : bool;
  o_cnstit : pyval;
  o_notrend : bool;
  o_nodsatlint : bool;
  o_nodsatnone : bool;
  o_gwchlint : bool;
  o_gwchnone : bool;
  o_infer : option infer_r;
  o_rmin : R;
  o_linci : bool;
  o_white : bool;
  o_nrlzn : nat;
  o_nodiagn : bool;
  o_ordercnstit : pyval;
  o_method : pyval;
  o_robust_kw : pyval;
  o_epoch : pyval
}.

(** Reading the dictionary: every use of [opt] in utide/_solve.py:230-433, utide/confidence.py and
    utide/_reconstruct.py goes through one of these fields.  All flags are used as truth values.
    A non-numeric rmin fails at utide/_solve.py:239 (TypeError).  nrlzn is never changed from its
    default 200 (the key "nrlzn" is not produced by _translate_opts). *)
Definition read_opt (d : dict pyval) : res optr :=
  do rmin <- as_num (oget d "rmin");
  do inf <- read_infer (oget d "infer");
  let newopts := match oget d "newopts" with PDict _ n => n | _ => [] end in
  Ok {| o_twodim := truthy (oget d "twodim");
        o_equi := truthy (oget d "equi");
        o_conf_int := truthy (oget d "conf_int");
        o_cnstit := oget d "cnstit";
        o_notrend := truthy (oget d "notrend");
        o_nodsatlint := truthy (oget d "nodsatlint");
        o_nodsatnone := truthy (oget d "nodsatnone");
        o_gwchlint := truthy (oget d "gwchlint");
        o_gwchnone := truthy (oget d "gwchnone");
        o_infer := inf;
        o_rmin := rmin;
        o_linci := truthy (oget d "linci");
        o_white := truthy (oget d "white");
        o_nrlzn := 200;
        o_nodiagn := truthy (oget d "nodiagn");
        o_ordercnstit := oget d "ordercnstit";
        o_method := oget newopts "method";
        o_robust_kw := oget newopts "robust_kw";
        o_epoch := oget d "epoch" |}.
