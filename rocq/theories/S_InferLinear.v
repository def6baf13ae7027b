(** Specification vocabulary for intervals of analyses with inference. *)
From Verif Require Import M_Base M_Lib M_Tables M_Const M_Options M_Time M_Slvinit M_Select M_Diag M_Solve S_Dict S_Options S_Order S_Slv S_Recon S_Model S_Accept S_InferAccept.
Open Scope R_scope.
Open Scope string_scope.

(** a call as in inference_call, with any method *)
Record inference_input (L : lib) (t : pyarr tarray) (u : pyarr (list xr)) (v : option (pyarr (list xr)))
    (opts : dict pyval) (sm : list (R * C)) (inferred references : list string) (ap : bool) : Prop := {
  ii_keys : unique_keys opts;
  ii_known : forall k, In k (keys opts) -> In k (keys documented);
  ii_infer : asks opts (match v with Some _ => true | None => false end) inferred references ap;
  ii_rayleigh : exists r, setting opts "Rayleigh_min" (PNum r);
  ii_order : forall x cf, setting opts "order_constit" x -> setting opts "conf_int" cf ->
    sorted_order x /\ (x = PStr "SNR" -> cf <> PStr "none");
  ii_samples : exists e, setting opts "epoch" e /\ samples (l_parse L) e t u v sm }.

(** for vector data the same ratio and offset for both senses of rotation: the second half of either list repeats the first *)
Definition same_both_ways (inf : infer_r) : Prop :=
  exists ratios offsets, inf_amp inf = (ratios ++ ratios)%list /\ inf_off inf = (offsets ++ offsets)%list /\
    length ratios = length (inf_inferred inf) /\ length offsets = length (inf_inferred inf).
