(** The model fit as output of reconstruct. *)
From Coq Require Import Lia Lra Permutation.
From Verif Require Import M_Base M_Lib M_Time M_Options M_Slvinit M_Harmonics M_Select M_Diag M_Solve M_Recon
  S_Dict S_Options S_Basis S_Order S_Select S_Fit S_Ellipse S_Slv S_Recon S_Model
  L_Base L_Options L_SolveInv L_Fit L_Recon L_Recon2 L_Recon3 L_Recon4 L_Model L_Model2 L_Model3 L_Model4 L_Model11 L_Model14 L_Model15.
Open Scope R_scope.

Lemma placed_yields f (sm : list (R * C)) (zs : list C) (g : C -> R) :
  Forall2 (fun x z => f (fst x) = Fin (g z)) sm zs ->
  placed f (map finite (map Fin (map fst sm))) = map (fun z => Fin (g z)) zs.
Proof.
  intros H. unfold placed. rewrite !map_map. induction H as [|x z sm zs H1 H2 IH]; [reflexivity|]. cbn [map]. f_equal; [exact H1|exact IH].
Qed.

Lemma forall2_impl {A D} (P Q : A -> D -> Prop) l k : (forall x y, P x y -> Q x y) -> Forall2 P l k -> Forall2 Q l k.
Proof. intros H F. induction F; constructor; auto. Qed.

(** reconstruct at the sample times *)
Lemma top_reconstruct L t u v lat opts sm c : analysis L t u v lat opts sm c -> approximate (c_opt c) = false ->
  exists si la s B xraw m W, lat = Some la /\ slvinit (l_parse L) t u v lat (o_epoch (c_opt c)) = Ok si /\
    ut_cnstitsel (si_tref si) (xdiv (Fin (o_rmin (c_opt c))) (Fin (24 * si_lor si))) (o_cnstit (c_opt c)) (o_infer (c_opt c)) = Ok s /\
    fit L (si_t si) (si_u si) (si_v si) (si_tref si) (si_lor si) la (c_opt c) s = Ok (B, xraw, m, W) /\
    exists o, reconstruct L (TNum (map Fin (map fst sm))) 1 c (PStr "python") CNone 0 0 = Ok o /\
      ro_series o = if o_twodim (c_opt c)
        then Vector (map (fun z => Fin (fst z)) (model_fit true B m)) (map (fun z => Fin (snd z)) (model_fit true B m))
        else Scalar (map (fun z => Fin (fst z)) (model_fit false B m)).
Proof.
  intros A NA. destruct (top_model _ _ _ _ _ _ _ _ A NA) as (si & la & s & B & xraw & m & W & E1 & E2 & E3 & E4 & F).
  exists si, la, s, B, xraw, m, W. repeat (split; [assumption|]).
  assert (N : normalize_time (l_parse L) (TNum (map Fin (map fst sm))) (PStr "python") = Ok (map Fin (map fst sm))) by reflexivity.
  rewrite (reconstruct_eq _ _ _ _ _ _ _ _ (analysis_wf _ _ _ _ _ _ _ _ A)), N. cbn [Nat.ltb Nat.leb bind].
  eexists. split; [reflexivity|]. cbn [ro_series]. unfold outcome. destruct (o_twodim (c_opt c)) eqn:E.
  - f_equal; apply placed_yields; (eapply forall2_impl; [|exact F]); intros x z [Y1 Y2]; rewrite E in Y2; auto.
  - f_equal; apply placed_yields; (eapply forall2_impl; [|exact F]); intros x z [Y1 Y2]; auto.
Qed.

(** two inferred constituents with one reference, approximately *)
Lemma approx_refused L t u v la opts compat si o s inf :
  process_opts opts (is2d v) = Ok compat ->
  slvinit (l_parse L) t u v (Some la) (oget compat "epoch") = Ok si ->
  read_opt (slv_opts (is2d v) (si_equi si) compat) = Ok o -> o_infer o = Some inf -> inf_approx inf = true ->
  ut_cnstitsel (si_tref si) (xdiv (Fin (o_rmin o)) (Fin (24 * si_lor si))) (o_cnstit o) (o_infer o) = Ok s ->
  bad_empty_index (flags_of o) s = false -> ~ NoDup (inf_reference inf) ->
  solve L t u v (Some la) opts = Err ValueError.
Proof.
  intros H1 H2 H3 Hi Ha H4 Hb Hn. unfold solve. fold (is2d v). rewrite H1. cbn [bind]. unfold solv1. fold (is2d v). rewrite H2. cbn [bind]. rewrite H3. cbn [bind].
  rewrite H4. cbn [bind]. rewrite Hi in H4. rewrite (fit_approx_error _ _ _ _ _ _ _ _ _ _ _ Hi Ha H4 Hb Hn). reflexivity.
Qed.
Lemma exact_inference L t u v lat opts sm c inf : analysis L t u v lat opts sm c -> o_infer (c_opt c) = Some inf -> inf_approx inf = false ->
  exists si la s B xraw m W, lat = Some la /\ slvinit (l_parse L) t u v lat (o_epoch (c_opt c)) = Ok si /\
    ut_cnstitsel (si_tref si) (xdiv (Fin (o_rmin (c_opt c))) (Fin (24 * si_lor si))) (o_cnstit (c_opt c)) (Some inf) = Ok s /\
    fit L (si_t si) (si_u si) (si_v si) (si_tref si) (si_lor si) la (c_opt c) s = Ok (B, xraw, m, W) /\
    Forall2 (fun x z => yields c (fst x) z) sm (model_fit (o_twodim (c_opt c)) B m).
Proof.
  intros A Hi Ha. rewrite <- Hi. apply (top_model L t u v lat opts sm c A). unfold approximate. now rewrite Hi.
Qed.
