(** Runs on a current record in its own, in turned and in exchanged axes. *)
From Coq Require Import QArith Qreals Lia Lra Permutation.
From Verif Require Import M_Base M_Lib M_Tables M_Const M_Options M_Time M_Slvinit M_Harmonics M_Select M_Ellipse
  M_Robust M_Period M_Conf M_Diag M_Solve M_Recon S_Dict S_Options S_Slv S_Order S_Basis S_Tables S_Harm S_Select S_Fit S_Ellipse S_Recon S_Model S_Perm S_Choice S_Turn
  L_Base L_Options L_SolveInv L_OptSolve L_Slv L_Slv2 L_Tables L_Order L_Select L_Fit L_Align L_SelOrder L_Order2 L_Order3 L_Basis L_Angle L_Recon
  L_Harm L_Bands L_Example L_Model L_Model2 L_Model11 L_Example3 L_Example4 L_Example5 L_Example13 L_Choice L_Turn.
Open Scope R_scope.
Open Scope string_scope.

(** an M2 current with rotary components p and q on a mean current r *)
Definition flow (m : C * C * C) : list C := [fst (fst m); snd (fst m); snd m].
Definition fz (m : C * C * C) (x : R) : C := cdot (ex_row [47%nat] x) (flow m).
Definition flow_u (m : C * C * C) := four_u (fz m 0) (fz m 1) (fz m 2) (fz m 4).
Definition flow_v (m : C * C * C) := four_v true (fz m 0) (fz m 1) (fz m 2) (fz m 4).
Definition flow_sm (m : C * C * C) : list (R * C) := map (fun x => (x, fz m x)) ext.
Lemma flow_run m : exists c, analysis (tryL [flow m]) ex_t (flow_u m) (flow_v m) (Some 45) off_opts (flow_sm m) c /\
  o_method (c_opt c) = PStr "ols" /\ o_infer (c_opt c) = None /\ o_nodsatnone (c_opt c) = true /\ o_gwchnone (c_opt c) = true /\
  o_notrend (c_opt c) = true /\ c_reftime c = ex_tref /\ c_name c = ["M2"] /\ c_lind c = [47%nat].
Proof.
  destruct (four_run [flow m] true (fz m 0) (fz m 1) (fz m 2) (fz m 4) off_opts) with (s := m2_sel) (inf := @None infer_r)
    (B := ex_B [47%nat]) (m := flow m) as (c & A & E1 & E2 & E3 & E4 & E5 & E6 & E7 & E8 & E9 & E10).
  - discriminate.
  - apply plain_m2.
  - cbn. lia.
  - apply inf_nil_basis.
  - now left.
  - intros x [<-|[]]. reflexivity.
  - exact ex_B_rows.
  - reflexivity.
  - exists c. apply Permutation_sym in E9, E10. apply Permutation_length_1_inv in E9. apply Permutation_length_1_inv in E10. repeat (split; [assumption|]). assumption.
Qed.

Lemma dot_row x p q r : cdot (ex_row [47%nat] x) [p; q; r] = Cplus (Cplus (Cmult (ex_e x 47) p) (Cmult (Cconj (ex_e x 47)) q)) r.
Proof. unfold cdot, ex_row, csum. cbn [map app combine fold_right fst snd]. generalize (ex_e x 47). intros e. ring. Qed.
Lemma flow_turn phi p q r x : fz (Cmult (cis (rad phi)) p, Cmult (cis (rad phi)) q, Cmult (cis (rad phi)) r) x = turn phi (fz (p, q, r) x).
Proof. unfold fz, flow. cbn [fst snd]. rewrite turn_eq, !dot_row. ring. Qed.
Lemma flow_mirror phi p q r x : fz (Cmult (cis (rad phi)) (Cconj q), Cmult (cis (rad phi)) (Cconj p), Cmult (cis (rad phi)) (Cconj r)) x = mirror phi (fz (p, q, r) x).
Proof. unfold fz, flow. cbn [fst snd]. rewrite mirror_eq, !dot_row, !conj_add, !conj_mul, conj_conj. ring. Qed.

Lemma flow_pair m m' : exists c c',
  analysis (tryL [flow m]) ex_t (flow_u m) (flow_v m) (Some 45) off_opts (flow_sm m) c /\
  analysis (tryL [flow m']) ex_t (flow_u m') (flow_v m') (Some 45) off_opts (flow_sm m') c' /\
  same_model c c' /\ o_infer (c_opt c) = None /\ approximate (c_opt c) = false /\ o_method (c_opt c) = PStr "ols" /\ o_method (c_opt c') = PStr "ols" /\
  identifiable c' (map fst (flow_sm m')) /\ NoDup (c_name c).
Proof.
  destruct (flow_run m) as (c & A & H1 & H2 & H3 & H4 & H5 & H6 & H7 & H8). destruct (flow_run m') as (c' & A' & G1 & G2 & G3 & G4 & G5 & G6 & G7 & G8).
  exists c, c'. split; [exact A|]. split; [exact A'|].
  split. { eapply agree_model; [exact A|exact A'| |reflexivity|congruence|rewrite H7, G7; apply Permutation_refl].
    intros k Hk. cbn [In] in Hk. repeat (destruct Hk as [<-|Hk]; [eexists; split; (first [left; cbn; tauto | right; split; [cbn; intros K; repeat (destruct K as [K|K]; [discriminate|]); exact K|cbn; tauto]])|]). destruct Hk. }
  split; [exact H2|]. split; [now apply approximate_none|]. split; [exact H1|]. split; [exact G1|]. split.
  - change (map fst (flow_sm m')) with ext. now apply c_identifiable.
  - rewrite H7. repeat constructor. cbn. tauto.
Qed.
Lemma flow_values f m m' : (forall x, fz m' x = f (fz m x)) -> values_by f (flow_sm m) (flow_sm m').
Proof.
  intros H. unfold values_by, flow_sm. apply Permutation_refl'. cbn [map ext fst snd]. rewrite !H. reflexivity.
Qed.
