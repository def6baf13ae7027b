(** A run ordered by an incomplete list of names. *)
From Coq Require Import Lia Lra Permutation.
From Verif Require Import M_Base M_Lib M_Tables M_Const M_Options M_Time M_Slvinit M_Harmonics M_Select M_Ellipse
  M_Robust M_Period M_Conf M_Diag M_Solve M_Recon S_Dict S_Options L_Base L_Options L_SolveInv L_OptSolve S_Slv L_Slv L_Slv2
  L_Tables S_Order L_Order S_Select L_Select S_Fit L_Fit L_Align L_SelOrder L_Order2 L_Order3 L_Order4 S_Basis L_Basis S_Recon L_Recon
  L_Recon2 L_Recon3 L_Example.
Open Scope R_scope.
Open Scope string_scope.

Lemma natural_unique L t u v lat opts a b : natural L t u v lat opts a -> natural L t u v lat opts b -> a = b.
Proof.
  intros [(compat & si & la & s & B & xraw & m & W & c1 & P1 & P2 & P3 & P4 & P5 & P6 & P7 & P8)]
         [(compat' & si' & la' & s' & B' & xraw' & m' & W' & c1' & Q1 & Q2 & Q3 & Q4 & Q5 & Q6 & Q7 & Q8)].
  rewrite P1 in Q1. apply Ok_inj in Q1. subst compat'. rewrite P2 in Q2. apply Ok_inj in Q2. subst si'.
  rewrite P4 in Q4. apply Ok_inj in Q4. rewrite P3 in Q3. injection Q3 as <-. rewrite <- Q4 in *.
  rewrite P5 in Q5. apply Ok_inj in Q5. subst s'. rewrite P6 in Q6. apply Ok_inj in Q6. injection Q6 as <- <- <- <-.
  rewrite P7 in Q7. apply Ok_inj in Q7. subst c1'. rewrite P8 in Q8. now apply Ok_inj in Q8.
Qed.

Lemma Cmod_real x : Cmod (x, 0) = Rabs x.
Proof. unfold Cmod. cbn [fst snd]. replace (x ^ 2 + 0 ^ 2) with (Rsqr x) by (unfold Rsqr; ring). apply sqrt_Rsqr_abs. Qed.

Lemma scalar_amps : map e_maj (map (fun p => ellipse_of false (fst p) (snd p)) (all_pm m_scalar (ex_sel [47%nat; 56%nat] ["M2"; "S2"] false))) = [1; 2].
Proof.
  unfold all_pm, ex_sel, m_scalar, ap_of, am_of, cslice, ellipse_of, cs2cep1, Xu_of, Yu_of, e_maj. cbn.
  replace (- - (0 - 0)) with 0 by ring. replace (- - (0 + - 0)) with 0 by ring.
  rewrite !Cmod_real. rewrite (Rabs_right (/ 2 + / 2)), (Rabs_right (1 + 1)) by lra. repeat f_equal; lra.
Qed.

Theorem subset_reported : exists b r,
  ex_call [47%nat; 56%nat] m_scalar false (dset ex_opts "order_constit" (PSeq [PStr "M2"])) = Ok b /\
  c_weights b <> [] /\ rows b = [r] /\ w_name r = Some "M2" /\ c_PE b = Some [Fin 20] /\
  forall mS, mS <> 0 -> chosen b CNone mS 50 r = xge (snr r) (Fin mS).
Proof.
  destruct (ex_natural [47%nat; 56%nat] ["M2"; "S2"] false eq_refl m_scalar false ex_opts ex_good_scalar (ex_variant_linear false))
    as (cN & N & N1 & N2 & N3 & T & G1 & G2 & G3 & G4 & G5 & G6).
  assert (Hu := proj1 (ex_variant_linear false)).
  assert (EA : c_A cN = Some [1; 2]).
  { rewrite G2. unfold coef_core. cbn [c_A]. rewrite T. cbn [negb oif]. f_equal. exact scalar_amps. }
  assert (EM : c_Lsmaj cN = None) by (rewrite G3; unfold coef_core; cbn [c_Lsmaj]; now rewrite T).
  unfold ex_call. rewrite (natural_order _ _ _ _ _ _ _ _ Hu N).
  replace (validate_order_constit _ _) with (Ok (PSeq (map PStr ["M2"]))) by reflexivity. cbn [bind].
  assert (R : exists b0, reorder (exL m_scalar) cN (PSeq (map PStr ["M2"])) = Ok b0).
  { rewrite reorder_eq. unfold order_stage. cbn [eq_str]. rewrite order_names_seq. cbn [bind mapM]. rewrite N1.
    unfold name_index. cbn [find_index String.eqb Ascii.eqb Bool.eqb bind fst snd]. apply apply_order_ok; auto. rewrite N1. cbn.
    intros i [<- |[]]. lia. }
  destruct R as [b0 R]. rewrite R. cbn [rmap].
  (* diagnostics of the natural order, from a run with order None *)
  assert (Q : c_PE cN = Some [Fin 20; Fin 80]).
  { destruct (run_variant [47%nat; 56%nat] ["M2"; "S2"] false m_scalar false ex_opts PNone eq_refl ex_good_scalar (ex_variant_linear false)
      eq_refl (or_introl eq_refl)) as (a & Ha & HW).
    destruct (solve_ran _ _ _ _ _ _ _ (ex_shape m_scalar) (ex_arrays _ m_scalar false) (unique_dset _ _ _ Hu) Ha HW) as (cN' & si & s & Rn).
    destruct (natural_diag _ _ _ _ _ _ _ _ _ _ Rn) as [_ D].
    assert (Nn : o_nodiagn (c_opt a) = false).
    { rewrite (rn_nod _ _ _ _ _ _ _ _ _ _ Rn). reflexivity. }
    destruct (D Nn) as (D1 & _).
    assert (E1 := rn_nat _ _ _ _ _ _ _ _ _ _ Rn).
    assert (E2 : rows cN' = rows cN /\ c_PE cN' = c_PE cN).
    { assert (Nx := natural_order _ _ _ _ _ _ _ PNone Hu N).
      destruct N as [(compat & si2 & la & s2 & B & xraw & m & W & c1 & P1 & P2 & P3 & P4 & P5 & P6 & P7 & P8)].
      destruct (process_order ex_opts false compat PNone (PStr "PE") Hu P1 eq_refl) as (compat' & Z1 & Z2 & Z3).
      assert (N' : natural (exL m_scalar) ex_t (ex_u [47%nat; 56%nat] m_scalar) None (Some 45) (dset ex_opts "order_constit" PNone)
                    (with_opt cN (with_order (c_opt cN) (PStr "PE")))).
      { constructor. exists compat', si2, la, s2, B, xraw, m, W, (with_opt c1 (with_order (c_opt cN) (PStr "PE"))).
        change (c_opt (with_opt cN (with_order (c_opt cN) (PStr "PE")))) with (with_order (c_opt cN) (PStr "PE")).
        split; [exact Z1|]. split; [rewrite Z2; exact P2|]. split; [exact P3|]. split; [apply Z3; exact P4|].
        split; [exact P5|]. split; [exact P6|]. split; [now apply ci_stage_order|now apply diag_stage_order]. }
      rewrite (natural_unique _ _ _ _ _ _ _ _ E1 N'). split; reflexivity. }
    destruct E2 as [E2 E3]. rewrite <- E3, D1. rewrite (same_total _ _ E2), E2. unfold total, rows. rewrite N1. cbn [length seq map fold_right].
    unfold energy, crow_of. cbn [w_Lsmaj w_Lsmin w_A]. rewrite EM, EA. cbn [at_ option_map nth_error]. unfold share.
    destruct (Req_EM_T (1 * 1 + (2 * 2 + 0)) 0); [lra|]. repeat f_equal; lra. }
  destruct (name_order _ _ _ _ R) as (M1 & ind & M2 & M3 & M4).
  rewrite reorder_eq in R. unfold order_stage in R. cbn [eq_str] in R. rewrite order_names_seq in R. cbn [bind mapM] in R. rewrite N1 in R.
  unfold name_index in R. cbn [find_index String.eqb Ascii.eqb Bool.eqb bind fst snd] in R.
  assert (RR := apply_order_rows' _ _ _ R). cbn [map] in RR. destruct (apply_order_rows _ _ _ R) as (_ & A & D & _).
  assert (AB := apply_order_base _ _ _ R). destruct AB as [AB _].
  exists (with_opt b0 (with_order (c_opt cN) (PSeq (map PStr ["M2"])))), (crow_of cN 0).
  split; [reflexivity|]. cbn [with_opt c_weights]. split.
  { rewrite (sb_weights _ _ AB), N2. discriminate. }
  split; [exact RR|]. split; [cbn; now rewrite N1|]. split.
  - assert (X := f_equal (fun d => snd (fst d)) (D 0%nat 0%nat eq_refl)). cbn [drow_of fst snd] in X. rewrite Q in X. cbn [at_ option_map nth_error] in X.
    cbn [c_PE with_opt]. destruct (c_PE b0) as [pe|] eqn:E; [|discriminate].
    destruct A as (_ & _ & _ & _ & _ & _ & _ & _ & _ & _ & _ & _ & A13 & _). specialize (A13 _ E). rewrite M1 in A13.
    destruct pe as [|q [|]]; try discriminate. cbn in X. injection X as ->. reflexivity.
  - intros mS Hm. unfold chosen. cbn [w_name crow_of]. rewrite N1. cbn [nth_error with_opt c_opt].
    assert (Nn : o_nodiagn (with_order (c_opt cN) (PSeq (map PStr ["M2"]))) = false).
    { destruct N as [(compat & si2 & la & s2 & B & xraw & m & W & c1 & P1 & P2 & P3 & P4 & P5 & P6 & P7 & P8)].
      destruct (used_options ex_opts false (si_equi si2) Hu compat _ P1 P4) as (_ & _ & _ & _ & _ & _ & _ & U9 & _). cbn [with_order o_nodiagn]. exact U9. }
    rewrite Nn. destruct (Req_EM_T mS 0); [contradiction|].
    assert (TT : share (energy (crow_of cN 0)) (total (with_opt b0 (with_order (c_opt cN) (PSeq (map PStr ["M2"]))))) = Fin 100).
    { unfold total. change (rows (with_opt b0 (with_order (c_opt cN) (PSeq (map PStr ["M2"]))))) with (rows b0). rewrite RR.
      cbn [map fold_right]. unfold energy, crow_of. cbn [w_Lsmaj w_Lsmin w_A]. rewrite EM, EA. cbn [at_ option_map nth_error]. unfold share.
      destruct (Req_EM_T (1 * 1 + 0) 0); [lra|]. f_equal. field. }
    rewrite TT. cbn [xge]. destruct (Rle_dec 50 100); [|lra]. apply andb_true_r.
Qed.
