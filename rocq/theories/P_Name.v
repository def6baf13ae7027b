(** Properties C18 and C49 when a string is given for the list of constituents. *)
From Coq Require Import Lia Lra.
From Verif Require Import M_Base M_Lib M_Tables M_Const M_Options M_Time M_Slvinit M_Harmonics M_Select M_Diag M_Solve M_Recon
  S_Dict S_Options S_Slv S_Order S_Fit S_Recon L_Options L_Recon4 L_Recon6 L_Name.
Open Scope R_scope.
Open Scope string_scope.

(** C18.  The name of a constituent instead of a list of names gives no result (it is read letter by letter) *)
Theorem C18_string : forall L t u v lat opts s, unique_keys opts -> setting opts "constit" (PStr s) -> s <> "auto" -> s <> "" ->
  forall c, solve L t u v lat opts <> Ok c.
Proof. exact string_solve. Qed.
Print Assumptions C18_string.

Example C18_string_example : unique_keys [("constit", PStr "M2")] /\ setting [("constit", PStr "M2")] "constit" (PStr "M2") /\ In "M2" const_name.
Proof.
  split; [repeat constructor; intros []|]. split; [left; cbn; tauto|].
  assert (X : existsb (String.eqb "M2") const_name = true) by (vm_compute; reflexivity). apply existsb_exists in X. destruct X as (n & Hn & E). apply String.eqb_eq in E. now subst.
Qed.

(** C49.  A string given to reconstruct stands for all constituents whose names it contains *)
Theorem C49_string : forall L t nd c e s mS mP o tn, well_formed c -> normalize_time (l_parse L) t e = Ok tn ->
  reconstruct L t nd c e (CStr s) mS mP = Ok o -> exists keep,
  (forall r, In r (rows c) -> (keep r = true <-> exists n a b, w_name r = Some n /\ s = (a ++ n ++ b)%string)) /\
  made_of c (filter keep (rows c)) tn (ro_series o).
Proof. exact made_string. Qed.
Print Assumptions C49_string.

(** so that a name may stand for more than the list of it: O1 is taken along with SO1 *)
Theorem C49_string_refuted : exists c, well_formed c /\ c_name c = ["O1"; "SO1"] /\ forall L, exists a b,
  reconstruct L (TNum [Fin 730000]) 1 c (PStr "python") (CStr "SO1") 0 0 = Ok a /\ ro_series a = Scalar [Fin 2] /\
  reconstruct L (TNum [Fin 730000]) 1 c (PStr "python") (CSeq ["SO1"]) 0 0 = Ok b /\ ro_series b = Scalar [Fin 1].
Proof. exact (ex_intro _ two_coef (conj two_wf (conj eq_refl string_or_list))). Qed.
Print Assumptions C49_string_refuted.
