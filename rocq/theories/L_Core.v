(** The fitted values behind a result of solve. *)
From Coq Require Import Lia Lra.
From Verif Require Import M_Base M_Lib M_Tables M_Const M_Options M_Time M_Slvinit M_Harmonics M_Select M_Ellipse
  M_Robust M_Period M_Conf M_Diag M_Solve S_Dict S_Options S_Order S_Ellipse L_Base L_SolveInv L_Order L_Align L_Select L_Angle L_Ellipse.
Open Scope R_scope.

(** the arrays of a result that come straight from the fit *)
Record from_core (k c : coef) : Prop := {
  fc_name : c_name c = c_name k; fc_frq : c_frq c = c_frq k; fc_lind : c_lind c = c_lind k;
  fc_g : c_g c = c_g k; fc_A : c_A c = c_A k; fc_maj : c_Lsmaj c = c_Lsmaj k; fc_min : c_Lsmin c = c_Lsmin k;
  fc_th : c_theta c = c_theta k; fc_base : same_base k c }.

Lemma ci_stage_core L o s si la B xraw m W c1 : ci_stage L o s si la B xraw m W = Ok c1 ->
  from_core (coef_core (si_tref si) (si_lor si) la o s m W) c1.
Proof.
  unfold ci_stage. destruct (o_conf_int o); intros H.
  - inv_bind H. apply Ok_inj in H. subst c1. constructor; try reflexivity. apply set_ci_base.
  - apply Ok_inj in H. subst c1. constructor; try reflexivity. apply same_base_refl.
Qed.
Lemma diag_stage_core L o k c1 c2 : from_core k c1 -> diag_stage L o c1 = Ok c2 -> from_core k c2.
Proof.
  intros F H. assert (B := diag_stage_base _ _ _ _ H). unfold diag_stage in H. destruct (o_nodiagn o).
  - apply Ok_inj in H. now subst c2.
  - inv_bind H. inv_bind H. inv_bind H. apply Ok_inj in H. subst c2. destruct F. constructor; auto.
    eapply same_base_trans; eauto.
Qed.

(** a row of a result is a row of the natural-order result *)
Lemma reorder_row L c x b r : reorder L c x = Ok b -> In r (rows b) ->
  exists i, (i < length (c_name c))%nat /\ r = crow_of c i.
Proof.
  intros H Hr. destruct (reorder_inv _ _ _ _ H) as (c' & ind & H1 & H2 & _).
  destruct (order_stage_rows _ _ _ _ _ H1) as (R1 & R2 & _).
  destruct (apply_order_rows _ _ _ H2) as (N & _ & D & I).
  apply in_map_iff in Hr. destruct Hr as (j & <- & Hj). apply in_seq in Hj.
  destruct (nth_error ind j) as [i|] eqn:Ei; [|apply nth_error_None in Ei; lia].
  exists i. split; [rewrite <- R2; apply I; eapply nth_error_In; eauto|].
  assert (E := f_equal (fun q => fst (fst q)) (D j i Ei)). cbn [drow_of fst] in E. rewrite E. apply R1.
Qed.

(** every row of a result of solve describes one of the fitted or inferred constituents *)
Lemma solve_rows L t u v lat opts c : solve L t u v lat opts = Ok c -> exists si la s B xraw m W,
  lat = Some la /\
  fit L (si_t si) (si_u si) (si_v si) (si_tref si) (si_lor si) la (c_opt c) s = Ok (B, xraw, m, W) /\
  same_base (coef_core (si_tref si) (si_lor si) la (c_opt c) s m W) c /\
  forall r, In r (rows c) -> exists i,
    w_name r = nth_error (s_name s) i /\ w_frq r = nth_error (s_frq s) i /\ w_lind r = nth_error (s_lind s) i /\
    let e := option_map (fun p => ellipse_of (o_twodim (c_opt c)) (fst p) (snd p)) (nth_error (all_pm m s) i) in
    w_g r = option_map e_g e /\
    w_A r = (if o_twodim (c_opt c) then None else Some (option_map e_maj e)) /\
    w_Lsmaj r = (if o_twodim (c_opt c) then Some (option_map e_maj e) else None) /\
    w_Lsmin r = (if o_twodim (c_opt c) then Some (option_map e_min e) else None) /\
    w_theta r = (if o_twodim (c_opt c) then Some (option_map e_theta e) else None).
Proof.
  intros Hc. destruct (solve_inv _ _ _ _ _ _ _ Hc) as
    [(compat & si & la & o & s & B & xraw & m & W & c1 & c2 & P1 & P2 & P3 & P4 & P5 & P6 & P7 & P8 & P9)].
  assert (Ho : c_opt c = o) by (rewrite (sb_opt _ _ (solve_base _ _ _ _ _ _ _ _ _ _ _ _ P7 P8 P9)); reflexivity).
  exists si, la, s, B, xraw, m, W. rewrite Ho. split; [auto|]. split; [auto|].
  split; [apply (solve_base _ _ _ _ _ _ _ _ _ _ _ _ P7 P8 P9)|].
  assert (F := diag_stage_core _ _ _ _ _ (ci_stage_core _ _ _ _ _ _ _ _ _ _ P7) P8).
  intros r Hr. destruct (reorder_row _ _ _ _ _ P9 Hr) as (i & _ & ->). exists i.
  destruct F as [F1 F2 F3 F4 F5 F6 F7 F8 _]. cbn [crow_of w_name w_frq w_lind w_g w_A w_Lsmaj w_Lsmin w_theta].
  rewrite F1, F2, F3, F4, F5, F6, F7, F8. cbn [coef_core c_name c_frq c_lind c_g c_A c_Lsmaj c_Lsmin c_theta].
  do 3 (split; [reflexivity|]). rewrite !nth_error_map.
  destruct (o_twodim o); cbn [oif negb at_ option_map]; rewrite ?nth_error_map; destruct (nth_error (all_pm m s) i); repeat split.
Qed.

(** in the scalar case the third and fourth results are 0 *)
Lemma ellipse_of_ranges tw p m : let e := ellipse_of tw p m in
  0 <= e_maj e /\ Rabs (e_min e) <= e_maj e /\ 0 <= e_theta e < 180 /\ 0 <= e_g e < 360.
Proof.
  unfold ellipse_of. destruct tw; cbn zeta.
  - destruct (cs2cep2 (Xu_of p m) (Yu_of p m) (Xv_of p m) (Yv_of p m)) as [[[a b] th] g] eqn:E.
    apply cep2_ranges in E. cbn. destruct E as (H1 & H2 & H3). generalize (Rabs_pos b). lra.
  - destruct (cs2cep1 (Xu_of p m) (Yu_of p m)) as [[[a b] th] g] eqn:E.
    apply cep1_lemma in E. cbn. destruct E as (H1 & -> & -> & H3 & _). rewrite Rabs_R0. lra.
Qed.

Lemma solve_ranges L t u v lat opts c r : solve L t u v lat opts = Ok c -> In r (rows c) -> row_ranges r.
Proof.
  intros Hc Hr. destruct (solve_rows _ _ _ _ _ _ _ Hc) as (si & la & s & B & xraw & m & W & _ & _ & _ & H).
  destruct (H r Hr) as (i & _ & _ & _ & H1 & H2 & H3 & H4 & H5).
  unfold row_ranges. rewrite H1, H2, H3, H4, H5. clear.
  destruct (nth_error (all_pm m s) i) as [[p q]|]; cbn [option_map fst snd].
  - generalize (ellipse_of_ranges (o_twodim (c_opt c)) p q). cbn zeta. intros (R1 & R2 & R3 & R4).
    generalize (ellipse_of (o_twodim (c_opt c)) p q) R1 R2 R3 R4. clear. intros e R1 R2 R3 R4.
    destruct (o_twodim (c_opt c)).
    + split; [intros g E; injection E as <-; auto|]. split; [discriminate|].
      split; [intros a b E1 E2; injection E1 as <-; injection E2 as <-; auto|]. intros th E. injection E as <-. auto.
    + split; [intros g E; injection E as <-; auto|]. split; [intros a E; injection E as <-; auto|].
      split; discriminate.
  - destruct (o_twodim (c_opt c)); repeat split; intros; discriminate.
Qed.
