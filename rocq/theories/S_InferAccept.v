(** Specification vocabulary for the calls of solve with inference that give a result. *)
From Verif Require Import M_Base M_Lib M_Tables M_Const M_Options M_Time M_Slvinit M_Select M_Diag M_Solve S_Dict S_Options S_Order S_Slv S_Recon S_Model S_Errors S_Perm S_Noise S_Nodal S_Accept.
Open Scope R_scope.
Open Scope string_scope.

(** The option infer: a Bunch with the four documented lists, for scalar or vector data; the constituents [inferred] are inferred
    from [references], approximately if [ap]. *)
Record asks (opts : dict pyval) (tw : bool) (inferred references : list string) (ap : bool) : Prop := {
  as_obj : exists d ratios offsets, setting opts "infer" (PDict true d) /\ unique_keys d /\
    entry d "inferred_names" (PSeq (map PStr inferred)) /\ entry d "reference_names" (PSeq (map PStr references)) /\
    entry d "amp_ratios" (PSeq (map PNum ratios)) /\ entry d "phase_offsets" (PSeq (map PNum offsets)) /\
    length ratios = (if tw then 2 * length inferred else length inferred)%nat /\ length offsets = length ratios /\
    (if ap then exists x, entry d "approximate" x /\ ~ falsy x else forall x, entry d "approximate" x -> falsy x);
  as_len : length references = length inferred;
  as_known : forall n, In n inferred \/ In n references -> In n const_name }.

(** documented options with values of the documented kind, constituents of the table, at least one valid sample, ordinary least squares *)
Record inference_call (L : lib) (t : pyarr tarray) (u : pyarr (list xr)) (v : option (pyarr (list xr)))
    (opts : dict pyval) (sm : list (R * C)) (inferred references : list string) (ap : bool) : Prop := {
  ic_keys : unique_keys opts;
  ic_known : forall k, In k (keys opts) -> In k (keys documented);
  ic_infer : asks opts (match v with Some _ => true | None => false end) inferred references ap;
  ic_rayleigh : exists r, setting opts "Rayleigh_min" (PNum r);
  ic_order : forall x cf, setting opts "order_constit" x -> setting opts "conf_int" cf ->
    sorted_order x /\ (x = PStr "SNR" -> cf <> PStr "none");
  ic_constit : setting opts "constit" (PStr "auto") \/
    exists names, (forall n, In n names -> In n const_name) /\ setting opts "constit" (PSeq (map PStr names));
  ic_samples : exists e, setting opts "epoch" e /\ samples (l_parse L) e t u v sm;
  ic_some : sm <> [];
  ic_method : setting opts "method" (PStr "ols") }.

(** neither nodal nor astronomical corrections *)
Definition uncorrected (opts : dict pyval) : Prop :=
  setting opts "phase" (PStr "raw") /\ forall x, setting opts "nodal" x -> falsy x.
(** the nodal correction of a constituent (other than M7) never vanishes *)
Definition lasting (la : R) (n : string) : Prop :=
  exists k, constit_index n = Ok k /\ k <> 117%nat /\ forall jd, nodal la jd k <> RtoC 0.
(** A constituent takes no part in the inference: one of those asked for, or, with constit='auto', one that an analysis without
    inference selects. *)
Definition bystander (L : lib) (t : pyarr tarray) (u : pyarr (list xr)) (v : option (pyarr (list xr))) (la : R) (opts : dict pyval)
    (taking_part : list string) : Prop :=
  (exists names n, setting opts "constit" (PSeq (map PStr names)) /\ In n names /\ ~ In n taking_part) \/
  (exists opts0 c0 n, solve L t u v (Some la) opts0 = Ok c0 /\ unique_keys opts0 /\ setting opts0 "infer" PNone /\
     (forall k x, k = "constit" \/ k = "Rayleigh_min" \/ k = "epoch" -> (setting opts k x <-> setting opts0 k x)) /\
     In n (c_name c0) /\ ~ In n taking_part).
