(** Monte-Carlo intervals of a whole analysis. *)
From Coq Require Import Lia Lra Permutation.
From Coquelicot Require Import Coquelicot.
From Verif Require Import M_Base M_Lib M_Options M_Time M_Slvinit M_Select M_Ellipse M_Period M_Conf M_Solve M_Diag M_Recon
  S_Order S_Ellipse S_Dict S_Options S_Slv S_Fit S_Recon S_Model S_Conf S_Errors S_Sampled
  L_Base L_SolveInv L_OptSolve L_Select L_Example7 L_Conf5 L_Errors5 L_Errors6.
Open Scope R_scope.
Open Scope string_scope.

(** ** the sampler's arguments *)
Definition cov1 (L : lib) (D : list (list xr)) (tr : xr) (P : option xr) (cov : rmat) : Prop :=
  match P with
  | Some P => exists A r, need_finite (rescale P D tr) = Ok A /\ nearestSPD L 2 A = Ok r /\ cov = fst (fst r)
  | None => need_finite D = Ok cov
  end.
Lemma mc1_draws L c Xu Yu g D tr P n w : mvn_shape L -> mc1 L c Xu Yu g D tr P n = Ok w ->
  exists cov, cov1 L D tr P cov /\ scalar_draws L Xu Yu cov n g (ci_maj w) (ci_g w).
Proof.
  intros Hm H. unfold mc1 in H.
  inv_bind H. rename a into cov. inv_bind H. rename a into smp. inv_bind H. rename a into ep. cbv zeta in H.
  destruct (Hm _ _ _ _ _ Ha0) as [Hn Hs]. destruct (rows2 _ _ Hs Ha1) as (q & -> & ->). rewrite map_length in Hn.
  destruct (map (fun p => cs2cep1 (fst p) (snd p)) q) as [|e0 ep] eqn:Eq; [discriminate|]. rewrite <- Eq in *.
  apply Ok_inj in H. subst w. cbn [ci_maj ci_min ci_theta ci_g]. rewrite !map_map.
  assert (NE : forall f : R * R -> R, map f q <> []) by (intros f E; destruct q; discriminate).
  exists cov. split.
  { unfold cov1. destruct P; [|exact Ha]. inv_bind Ha. inv_bind Ha. apply Ok_inj in Ha. eauto. }
  exists c, q. do 3 eexists. split; [exact Ha0|]. split; [exact Hn|].
  split; [apply mad_spread|]. split; [reflexivity|].
  split; [apply branch_cluster; [lra | apply NE]|]. split; [apply mad_spread|]. reflexivity.
Qed.

Definition cov2 (L : lib) (Duu Dvv Duv : list (list xr)) (truu trvv : xr) (P : option (xr * xr * xr)) (cov : rmat) : Prop :=
  match P with
  | Some (Puu, Pvv, Puv) => exists A r,
      let s := xsum (map xabs (List.concat Duv)) in
      let Duv' := if xlt (Fin 0) s then rescale Puv Duv s else map (map (fun _ => Fin 0)) Duv in
      need_finite (block4 (rescale Puu Duu truu) Duv' (transp2 Duv') (rescale Pvv Dvv trvv)) = Ok A /\ nearestSPD L 4 A = Ok r /\ cov = fst (fst r)
  | None => need_finite (block4 Duu Duv (transp2 Duv) Dvv) = Ok cov
  end.
Lemma mc2_draws L c Xu Yu Xv Yv g th Duu Dvv Duv truu trvv P n w : mvn_shape L ->
  mc2 L c Xu Yu Xv Yv g th Duu Dvv Duv truu trvv P n = Ok w ->
  exists cov, cov2 L Duu Dvv Duv truu trvv P cov /\ vector_draws L Xu Yu Xv Yv cov n th g (ci_maj w) (ci_min w) (ci_theta w) (ci_g w).
Proof.
  intros Hm H. unfold mc2 in H.
  inv_bind H. rename a into cov. inv_bind H. rename a into smp. inv_bind H. rename a into ep. cbv zeta in H.
  destruct (Hm _ _ _ _ _ Ha0) as [Hn Hs]. destruct (rows4 _ _ Hs Ha1) as (q & -> & ->).
  assert (M : forall (f : R * R * R * R -> R), map f (map (fun p => let '(a, b, d, e) := p in cs2cep2 a b d e) q) =
                map (fun p => let '(a, b, d, e) := p in f (cs2cep2 a b d e)) q).
  { intros f. rewrite map_map. apply map_ext. intros [[[? ?] ?] ?]. reflexivity. }
  rewrite map_length in Hn.
  destruct (map (fun p => let '(a, b, d, e) := p in cs2cep2 a b d e) q) as [|e0 ep] eqn:Eq; [discriminate|]. rewrite <- Eq in *.
  apply Ok_inj in H. subst w. cbn [ci_maj ci_min ci_theta ci_g]. rewrite !M.
  assert (NE : forall f : R * R * R * R -> R, map f q <> []) by (intros f E; destruct q; discriminate).
  exists cov. split.
  { unfold cov2. destruct P as [[[Puu Pvv] Puv]|]; [|exact Ha]. cbv zeta in *. inv_bind Ha. inv_bind Ha. apply Ok_inj in Ha. eauto. }
  exists c, q. do 6 eexists. split; [exact Ha0|]. split; [exact Hn|].
  split; [apply mad_spread|]. split; [reflexivity|]. split; [apply mad_spread|]. split; [reflexivity|].
  split; [apply branch_cluster; [lra | apply NE]|]. split; [apply mad_spread|]. split; [reflexivity|].
  split; [apply branch_cluster; [lra | apply NE]|]. split; [apply mad_spread|]. reflexivity.
Qed.

Lemma noise_cov_unique c sm q q' : noise_covariance c sm q -> noise_covariance c sm q' -> q = q'.
Proof. intros (rs & H & ->) (rs' & H' & ->). now rewrite (residuals_same _ _ _ H _ H'). Qed.

Lemma white_none L t u v lat opts sm c si frq p : analysis L t u v lat opts sm c -> setting opts "white" (PBool true) -> noise_behind L c sm si frq p -> p = None.
Proof.
  intros AN WH NB. unfold noise_behind in NB. destruct (o_white (c_opt c)) eqn:E; [exact NB|].
  apply (set_white _ _ _ _ _ _ (an_keys _ _ _ _ _ _ _ _ AN) _ (an_solve _ _ _ _ _ _ _ _ AN) _ WH) in E.
  unfold falsy in E. destruct E as [E|[E|[E|[E|[E|[b E]]]]]]; discriminate E.
Qed.

(** ** white noise *)
Lemma sampled_scalar L t u lat opts sm c : analysis L t u None lat opts sm c -> lstsq_minimises L -> inv_exact L -> mvn_shape L ->
  setting opts "method" (PStr "ols") -> setting opts "infer" PNone -> setting opts "conf_int" (PStr "MC") -> setting opts "white" (PBool true) ->
  (params c < length sm)%nat ->
  forall r i wX wY q, In r (rows c) -> w_lind r = Some i ->
  best_unbiased c sm i true wX -> best_unbiased c sm i false wY -> noise_variance fst c sm q ->
  let X := estimate fst wX sm in let Y := estimate fst wY sm in
  let cov := [[q * squares wX; q * products wX wY]; [q * products wX wY; q * squares wY]] in
  w_A r = Some (Some (A_of X Y)) /\ w_g r = Some (g1_of X Y) /\
  exists a b, scalar_draws L X Y cov 200 (g1_of X Y) a b /\ w_A_ci r = Some (Some a) /\ w_g_ci r = Some (Some b).
Proof.
  intros AN LM IX MV ME IN CI WH PN r i wX wY q Hr Hl BX BY NV.
  destruct (run_conf _ _ _ _ _ _ _ _ false AN LM IX ME IN CI PN) as (si & frq & p & _ & _ & NB & H).
  apply (white_none _ _ _ _ _ _ _ _ _ _ _ AN WH) in NB. subst p.
  destruct (H r i Hr Hl) as (k & wX' & wY' & qu & qv & quv & gm & nc & w & g & th & _ & BX' & BY' & NU & _ & _ & _ & _ & (V1 & V2 & V3 & V4) & (K1 & _) & Elin & W & D).
  rewrite (best_unique _ _ _ _ _ _ BX' BX), (best_unique _ _ _ _ _ _ BY' BY), (noise_unique _ _ _ _ _ NU NV) in *.
  rewrite (set_twodim _ _ _ _ _ _ (an_keys _ _ _ _ _ _ _ _ AN) _ (an_solve _ _ _ _ _ _ _ _ AN)) in D. cbn [is2d] in D.
  destruct D as (-> & D1 & D2 & D3 & D4). cbv zeta in *. unfold conf_one in W. cbv zeta in W.
  rewrite Elin, (set_twodim _ _ _ _ _ _ (an_keys _ _ _ _ _ _ _ _ AN) _ (an_solve _ _ _ _ _ _ _ _ AN)), V1, V2, K1 in W. cbn [is2d n_uu option_map] in W.
  rewrite (set_nrlzn _ _ _ _ _ _ (an_keys _ _ _ _ _ _ _ _ AN) _ (an_solve _ _ _ _ _ _ _ _ AN)) in W.
  apply mc1_draws in W; [|exact MV]. destruct W as (cov & C1 & C2). unfold cov1, need_finite in C1. cbn in C1. apply Ok_inj in C1.
  split; [exact D1|]. split; [exact D2|]. exists (ci_maj w), (ci_g w). split; [|auto].
  rewrite !(Rmult_comm q). rewrite C1. exact C2.
Qed.

Lemma sampled_vector L t u v lat opts sm c : analysis L t u (Some v) lat opts sm c -> lstsq_minimises L -> inv_exact L -> mvn_shape L ->
  setting opts "method" (PStr "ols") -> setting opts "infer" PNone -> setting opts "conf_int" (PStr "MC") -> setting opts "white" (PBool true) ->
  (params c < length sm)%nat ->
  forall r i wX wY qu qv quv, In r (rows c) -> w_lind r = Some i ->
  best_unbiased c sm i true wX -> best_unbiased c sm i false wY ->
  noise_variance fst c sm qu -> noise_variance snd c sm qv -> noise_covariance c sm quv ->
  let Xu := estimate fst wX sm in let Yu := estimate fst wY sm in let Xv := estimate snd wX sm in let Yv := estimate snd wY sm in
  let xx := squares wX in let yy := squares wY in let xy := products wX wY in
  let cov := [[qu * xx; qu * xy; quv * xx; quv * xy]; [qu * xy; qu * yy; quv * xy; quv * yy];
              [quv * xx; quv * xy; qv * xx; qv * xy]; [quv * xy; quv * yy; qv * xy; qv * yy]] in
  w_Lsmaj r = Some (Some (maj_of Xu Yu Xv Yv)) /\ w_Lsmin r = Some (Some (min_of Xu Yu Xv Yv)) /\
  w_theta r = Some (Some (theta_of Xu Yu Xv Yv)) /\ w_g r = Some (g_of Xu Yu Xv Yv) /\
  exists a b d e, vector_draws L Xu Yu Xv Yv cov 200 (theta_of Xu Yu Xv Yv) (g_of Xu Yu Xv Yv) a b d e /\
    w_Lsmaj_ci r = Some (Some a) /\ w_Lsmin_ci r = Some (Some b) /\ w_theta_ci r = Some (Some d) /\ w_g_ci r = Some (Some e).
Proof.
  intros AN LM IX MV ME IN CI WH PN r i wX wY qu qv quv Hr Hl BX BY NU NV NC.
  destruct (run_conf _ _ _ _ _ _ _ _ false AN LM IX ME IN CI PN) as (si & frq & p & _ & _ & NB & H).
  apply (white_none _ _ _ _ _ _ _ _ _ _ _ AN WH) in NB. subst p.
  destruct (H r i Hr Hl) as (k & wX' & wY' & qu' & qv' & quv' & gm & nc & w & g & th & _ & BX' & BY' & NU' & NV' & NC' & _ & _ & (V1 & V2 & V3 & V4) & (K1 & K2 & K3 & K4 & K5 & K6) & Elin & W & D).
  rewrite (best_unique _ _ _ _ _ _ BX' BX), (best_unique _ _ _ _ _ _ BY' BY), (noise_unique _ _ _ _ _ NU' NU), (noise_unique _ _ _ _ _ NV' NV), (noise_cov_unique _ _ _ _ NC' NC) in *.
  rewrite (set_twodim _ _ _ _ _ _ (an_keys _ _ _ _ _ _ _ _ AN) _ (an_solve _ _ _ _ _ _ _ _ AN)) in D. cbn [is2d] in D.
  destruct D as (-> & -> & D1 & D2 & D3 & D4 & D5 & D6 & D7 & D8). cbv zeta in *. unfold conf_one in W. cbv zeta in W.
  rewrite Elin, (set_twodim _ _ _ _ _ _ (an_keys _ _ _ _ _ _ _ _ AN) _ (an_solve _ _ _ _ _ _ _ _ AN)), V1, V2, V3, V4, K1, K2, K3, K4, K5, K6 in W. cbn [is2d n_uu n_vv n_uv option_map] in W.
  rewrite (set_nrlzn _ _ _ _ _ _ (an_keys _ _ _ _ _ _ _ _ AN) _ (an_solve _ _ _ _ _ _ _ _ AN)) in W.
  apply mc2_draws in W; [|exact MV]. destruct W as (cov & C1 & C2). unfold cov2, need_finite in C1. cbn in C1. apply Ok_inj in C1.
  do 4 (split; [assumption|]). exists (ci_maj w), (ci_min w), (ci_theta w), (ci_g w). split; [|auto].
  rewrite !(Rmult_comm qu), !(Rmult_comm qv), !(Rmult_comm quv). rewrite C1. exact C2.
Qed.

Lemma sampled_exist L t u v lat opts sm c : analysis L t u v lat opts sm c -> lstsq_minimises L -> inv_exact L ->
  setting opts "method" (PStr "ols") -> setting opts "infer" PNone -> setting opts "conf_int" (PStr "MC") ->
  (params c < length sm)%nat ->
  forall r i, In r (rows c) -> w_lind r = Some i ->
  (exists! wX, best_unbiased c sm i true wX) /\ (exists! wY, best_unbiased c sm i false wY) /\
  (exists! qu, noise_variance fst c sm qu) /\ (exists! qv, noise_variance snd c sm qv) /\ (exists! quv, noise_covariance c sm quv).
Proof.
  intros AN LM IX ME IN CI PN r i Hr Hl.
  destruct (run_conf _ _ _ _ _ _ _ _ false AN LM IX ME IN CI PN) as (si & frq & p & _ & _ & _ & H).
  destruct (H r i Hr Hl) as (k & wX & wY & qu & qv & quv & gm & nc & w & g & th & _ & BX & BY & NU & NV & NC & _).
  split; [exists wX; split; [exact BX|intros; eapply best_unique; eassumption]|].
  split; [exists wY; split; [exact BY|intros; eapply best_unique; eassumption]|].
  split; [exists qu; split; [exact NU|intros; eapply noise_unique; eassumption]|].
  split; [exists qv; split; [exact NV|intros; eapply noise_unique; eassumption]|].
  exists quv; split; [exact NC|intros; eapply noise_cov_unique; eassumption].
Qed.
Lemma noisy_mvn B0 x0 m0 : mvn_shape (noisyL B0 x0 m0).
Proof.
  intros c mean cov n smp H. cbn [noisyL l_mvn] in H. apply Ok_inj in H. subst smp. split; [apply repeat_length|].
  apply Forall_forall. intros r Hr. apply repeat_spec in Hr. now subst r.
Qed.
