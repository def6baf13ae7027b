(** Signs of the half-widths, coloured noise, covariance columns, Monte Carlo. *)
From Coq Require Import Lia Lra Psatz.
From Coquelicot Require Import Coquelicot.
From Verif Require Import M_Base M_Lib M_Options M_Time M_Slvinit M_Harmonics M_Select M_Ellipse M_Robust M_Period M_Conf M_Diag M_Solve
  S_Dict S_Options S_Order S_Ellipse S_Conf S_Robust
  L_Base L_Options L_SolveInv L_OptSolve L_Order L_Align L_Select L_Angle L_Ellipse L_Core L_Robust L_Conf L_Conf2.
Open Scope R_scope.
Open Scope string_scope.

(** ** Signs *)
Lemma nn_sqrt x : not_negative (xsqrt x).
Proof.
  destruct x as [a| | |]; cbn; [destruct (Rlt_dec a 0)| | |].
  all: first [left; reflexivity | right; left; reflexivity | idtac].
  right. right. eexists. split; [reflexivity | apply sqrt_pos].
Qed.
Lemma nn_mul k x : 0 < k -> not_negative x -> not_negative (xmul (Fin k) x).
Proof.
  intros Hk [-> | [-> | (a & -> & Ha)]]; cbn; [left; auto | right; left | right; right].
  - unfold sgn_inf. destruct (Rlt_dec 0 k); [auto|contradiction].
  - eexists. split; [reflexivity|]. nra.
Qed.
Lemma nn_x4 f s : not_negative (x4 f s).
Proof. destruct f as [[[? ?] ?] ?], s as [[[? ?] ?] ?]. apply nn_sqrt. Qed.
Lemma nn_0 : not_negative (Fin 0). Proof. right. right. exists 0. split; auto; lra. Qed.
Lemma nn_complex a b : not_negative a -> not_negative b ->
  not_negative (fst (xcomplex a b)) /\ not_negative (snd (xcomplex a b)).
Proof. intros Ha Hb. split; [|exact Hb]. unfold xcomplex; cbn. destruct b; auto; now left. Qed.

Lemma nn_linci Xu Yu Xv Yv s1 s2 s3 s4 : let r := ut_linci Xu Yu Xv Yv s1 s2 s3 s4 in
  not_negative (fst (fst r)) /\ not_negative (snd (fst r)) /\ not_negative (fst (snd r)) /\ not_negative (snd (snd r)).
Proof.
  assert (D : 0 < 180 / PI) by (apply Rdiv_lt_0_compat; [lra | apply PI_RGT_0]).
  cbv zeta. unfold ut_linci. cbv zeta. destruct (Req_EM_T Xv 0) as [_|_].
  - cbn [fst snd]. repeat split; try apply nn_0; try apply nn_x4. apply nn_mul; [exact D | apply nn_x4].
  - match goal with |- context [(xcomplex ?a ?b, xcomplex ?c ?d)] =>
      destruct (nn_complex a b); [apply nn_x4 | apply nn_x4|];
      destruct (nn_complex c d); [apply nn_mul; [exact D|apply nn_x4] | apply nn_mul; [exact D|apply nn_x4]|] end.
    cbn [fst snd] in *. auto.
Qed.

Definition ci_nn (c : ci) : Prop :=
  not_negative (ci_maj c) /\ not_negative (ci_min c) /\ not_negative (ci_theta c) /\ not_negative (ci_g c).
Lemma z196_pos : 0 < 196 / 100. Proof. lra. Qed.

Lemma nn_NaN : not_negative NaN. Proof. now left. Qed.

Ltac linci_nn := match goal with |- context [ut_linci ?a ?b ?c ?d ?e ?f ?g ?h] =>
    let N := fresh "N" in assert (N := nn_linci a b c d e f g h); cbv zeta in N;
    destruct (ut_linci a b c d e f g h) as [[? ?] [? ?]]; cbn [fst snd] in N; destruct N as (? & ? & ? & ?) end;
  unfold ci_nn, z196; cbn [ci_maj ci_min ci_theta ci_g];
  repeat split; try apply nn_NaN; apply nn_mul; auto using z196_pos.

Lemma nn_linear1 Xu Yu a b P : ci_nn (linear1 Xu Yu a b P).
Proof. unfold linear1. destruct P; linci_nn. Qed.
Lemma nn_linear2 Xu Yu Xv Yv a b c d P : ci_nn (linear2 Xu Yu Xv Yv a b c d P).
Proof. unfold linear2, csig, xcomplex. destruct P; linci_nn. Qed.

Lemma nn_mad l : not_negative (Fin (mad196 l)).
Proof.
  right. right. eexists. split; [reflexivity|]. unfold mad196.
  set (d := map (fun a => Rabs (a - median l)) l).
  assert (0 <= median d).
  { apply (median_nonneg d); [now apply median_spec|]. unfold d. apply Forall_map, Forall_forall. intros. apply Rabs_pos. }
  apply Rdiv_le_0_compat; [|lra]. nra.
Qed.

Lemma nn_mc1 L c Xu Yu g D tr P n r : mc1 L c Xu Yu g D tr P n = Ok r -> ci_nn r.
Proof.
  unfold mc1. intros H. inv_bind H. inv_bind H. inv_bind H. cbv zeta in H. destruct a1 as [|q l]; [discriminate|].
  apply Ok_inj in H. subst r. unfold ci_nn. cbn [ci_maj ci_min ci_theta ci_g]. repeat split; try apply nn_NaN; apply nn_mad.
Qed.
Lemma nn_mc2 L c Xu Yu Xv Yv g th D1 D2 D3 t1 t2 P n r : mc2 L c Xu Yu Xv Yv g th D1 D2 D3 t1 t2 P n = Ok r -> ci_nn r.
Proof.
  unfold mc2. intros H. inv_bind H. inv_bind H. inv_bind H. cbv zeta in H. destruct a1 as [|q l]; [discriminate|].
  apply Ok_inj in H. subst r. unfold ci_nn. cbn [ci_maj ci_min ci_theta ci_g]. repeat split; apply nn_mad.
Qed.

Lemma nn_conf_one L o gam p nc c Xu Yu Xv Yv g th r : conf_one L o gam p nc c Xu Yu Xv Yv g th = Ok r -> ci_nn r.
Proof.
  unfold conf_one. cbv zeta. destruct (o_linci o).
  - intros H. apply Ok_inj in H. subst r. destruct (o_twodim o); [apply nn_linear2 | apply nn_linear1].
  - destruct (o_twodim o); [apply nn_mc2 | apply nn_mc1].
Qed.

Lemma mapM_idx_Forall {A B} (f : nat -> A -> res B) (P : B -> Prop) : forall l i r,
  (forall i x y, f i x = Ok y -> P y) -> mapM_idx f i l = Ok r -> Forall P r /\ length r = length l.
Proof.
  induction l as [|x l IH]; intros i r HP H; cbn in H.
  - injection H as <-. auto.
  - inv_bind H. inv_bind H. injection H as <-. destruct (IH _ _ HP Ha0) as [F E]. split; [constructor; eauto | cbn; lia].
Qed.

Lemma nn_inferred tw ref Xu Yu Xv Yv vc : Forall ci_nn (conf_inferred tw ref Xu Yu Xv Yv vc).
Proof.
  unfold conf_inferred. apply Forall_map, Forall_forall. intros [rp rm] _. destruct tw.
  - unfold csig, xcomplex. linci_nn.
  - linci_nn.
Qed.

Lemma nn_confidence L o s tin t e elor xraw xmod W B nm xs r :
  confidence L o s tin t e elor xraw xmod W B nm xs = Ok r -> Forall ci_nn r.
Proof.
  unfold confidence. intros H. inv_bind H. inv_bind H. cbv zeta in H. inv_bind H.
  apply (mapM_idx_Forall _ ci_nn) in Ha1; [|intros; eapply nn_conf_one; eauto]. destruct Ha1 as [F _].
  destruct (o_infer o); [|injection H as <-; auto]. destruct (o_linci o); [|discriminate]. injection H as <-.
  apply Forall_app. split; auto. apply Forall_concat, Forall_map, Forall_forall. intros [ref [x cc]] _. apply nn_inferred.
Qed.

Lemma at_Forall {A} (P : A -> Prop) l i x : at_ (Some l) i = Some (Some x) -> Forall P l -> P x.
Proof. cbn. intros E F. injection E as E. apply nth_error_In in E. rewrite Forall_forall in F. auto. Qed.

Lemma diag_stage_ci L o c1 c2 : diag_stage L o c1 = Ok c2 ->
  c_g_ci c2 = c_g_ci c1 /\ c_A_ci c2 = c_A_ci c1 /\ c_Lsmaj_ci c2 = c_Lsmaj_ci c1 /\ c_Lsmin_ci c2 = c_Lsmin_ci c1 /\
  c_theta_ci c2 = c_theta_ci c1.
Proof.
  unfold diag_stage. destruct (o_nodiagn o); intros H.
  - apply Ok_inj in H. subst. auto.
  - inv_bind H. inv_bind H. inv_bind H. apply Ok_inj in H. subst c2. cbn. auto.
Qed.

Lemma solve_ci_nn L t u v lat opts c r : solve L t u v lat opts = Ok c -> In r (rows c) -> ci_not_negative r.
Proof.
  intros Hc Hr. destruct (solve_inv _ _ _ _ _ _ _ Hc) as
    [(compat & si & la & o & s & B & xraw & m & W & c1 & c2 & P1 & P2 & P3 & P4 & P5 & P6 & P7 & P8 & P9)].
  destruct (reorder_row _ _ _ _ _ P9 Hr) as (i & Hi & ->).
  destruct (diag_stage_ci _ _ _ _ P8) as (E1 & E2 & E3 & E4 & E5).
  unfold ci_not_negative. cbn [crow_of w_g_ci w_A_ci w_Lsmaj_ci w_Lsmin_ci w_theta_ci]. rewrite E1, E2, E3, E4, E5.
  unfold ci_stage in P7. destruct (o_conf_int o).
  - inv_bind P7. apply Ok_inj in P7. subst c1. apply nn_confidence in Ha. unfold set_ci.
    cbn [c_g_ci c_A_ci c_Lsmaj_ci c_Lsmin_ci c_theta_ci]. unfold oif.
    assert (F : forall f : ci -> xr, (forall x, ci_nn x -> not_negative (f x)) -> Forall not_negative (map f a))
      by (intros f Hf; apply Forall_map; eapply Forall_impl; [|exact Ha]; auto).
    repeat split; intros x Hx.
    + eapply at_Forall; [exact Hx|]. apply F. unfold ci_nn. tauto.
    + destruct (o_twodim o); cbn [negb] in Hx; [discriminate|]. eapply at_Forall; [exact Hx|]. apply F. unfold ci_nn. tauto.
    + destruct (o_twodim o); [|discriminate]. eapply at_Forall; [exact Hx|]. apply F. unfold ci_nn. tauto.
    + destruct (o_twodim o); [|discriminate]. eapply at_Forall; [exact Hx|]. apply F. unfold ci_nn. tauto.
    + destruct (o_twodim o); [|discriminate]. eapply at_Forall; [exact Hx|]. apply F. unfold ci_nn. tauto.
  - apply Ok_inj in P7. subst c1. cbn. repeat split; intros x Hx; discriminate.
Qed.

(** ** Monte Carlo with inference *)
Lemma mc_infer_stage L o i s tin t e elor xraw xmod W B nm xs : o_infer o = Some i -> o_linci o = false ->
  confidence L o s tin t e elor xraw xmod W B nm xs =
  match confidence L (without_inference o) s tin t e elor xraw xmod W B nm xs with
  | Ok _ => Err NotImplementedError
  | Err x => Err x
  end.
Proof.
  intros Hi Hl. unfold confidence. cbv zeta.
  change (o_white (without_inference o)) with (o_white o). change (o_infer (without_inference o)) with (@None infer_r).
  change (o_equi (without_inference o)) with (o_equi o). change (o_twodim (without_inference o)) with (o_twodim o).
  rewrite Hi, Hl.
  match goal with |- bind ?a _ = match bind ?b _ with _ => _ end => change b with a; destruct a as [p|]; [|reflexivity] end.
  cbn [bind]. destruct (gammas L B nm W xraw xmod) as [gam|]; [|reflexivity]. cbn [bind].
  match goal with |- bind ?a _ = match bind ?b _ with _ => _ end => change b with a; destruct a; reflexivity end.
Qed.

Lemma mc_infer_solve L t u v lat opts b d : unique_keys opts ->
  setting opts "conf_int" (PStr "MC") -> setting opts "infer" (PDict b d) ->
  forall c, solve L t u v lat opts <> Ok c.
Proof.
  intros Hu H1 H2 c Hc. destruct (set_conf _ _ _ _ _ _ Hu _ Hc _ H1) as (_ & C1 & _ & C2).
  destruct (solve_opt _ _ _ _ _ _ _ Hc) as (compat & si & P1 & _ & P2).
  destruct (used_options _ _ _ Hu _ _ P1 P2) as
   (_ & _ & _ & _ & _ & _ & _ & _ & _ & _ & _ & _ & _ & _ & _ & _ & _ & _ & _ & _ & (inf & I1 & I2) & _).
  apply setting_iff in H2; [|exact Hu|simpl; tauto]. rewrite <- H2 in I1.
  assert (Hi : exists i, o_infer (c_opt c) = Some i).
  { destruct (o_infer (c_opt c)) eqn:Ei; [eauto|]. exfalso.
    unfold validate_infer in I1. cbn [is_none eq_str orb] in I1.
    destruct (proper_subset _ _); [discriminate|].
    inv_bind I1. inv_bind I1. inv_bind I1. inv_bind I1. destruct (negb _); [discriminate|]. inv_bind I1. inv_bind I1.
    destruct (negb _); [discriminate|]. inv_bind I1. inv_bind I1. destruct (negb _); [discriminate|]. injection I1 as <-.
    unfold read_infer in I2. cbn [is_none] in I2. repeat (inv_bind I2). discriminate. }
  destruct Hi as [i Hi].
  assert (El : o_linci (c_opt c) = false).
  { destruct (o_linci (c_opt c)) eqn:E; auto. destruct C2 as [C2 _]. specialize (C2 eq_refl). discriminate. }
  assert (Ec : o_conf_int (c_opt c) = true) by (apply C1; discriminate).
  destruct (solve_inv _ _ _ _ _ _ _ Hc) as
    [(compat' & si' & la & o & s & B & xraw & m & W & c1 & c2 & Q1 & Q2 & Q3 & Q4 & Q5 & Q6 & Q7 & Q8 & Q9)].
  assert (Ho : c_opt c = o) by (rewrite (sb_opt _ _ (solve_base _ _ _ _ _ _ _ _ _ _ _ _ Q7 Q8 Q9)); reflexivity).
  rewrite Ho in Hi, El, Ec. unfold ci_stage in Q7. rewrite Ec in Q7. inv_bind Q7.
  rewrite (mc_infer_stage _ _ _ _ _ _ _ _ _ _ _ _ _ _ Hi El) in Ha.
  match type of Ha with match ?x with _ => _ end = _ => destruct x; discriminate end.
Qed.
