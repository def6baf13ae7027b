(** A least-squares routine for one column, meeting the whole contract; a concrete robust run. *)
From Coq Require Import Lia Lra Psatz Sorted Permutation.
From Verif Require Import M_Base M_Lib M_Robust S_Recon S_Model S_Robust L_Base L_Slv2 L_Model L_Lsq L_Ellipse L_Example L_Example3 L_Robust L_Robust2.
Open Scope R_scope.
Open Scope string_scope.

(** ** one column *)
Definition h0 (row : list C) : C := hd (RtoC 0) row.
Definition colS (B : cmat) (x : list C) : R := rsum (map (fun p => fst (h0 (fst p)) ^ 2 + snd (h0 (fst p)) ^ 2) (combine B x)).
Definition colA (B : cmat) (x : list C) : R :=
  rsum (map (fun p => fst (h0 (fst p)) * fst (snd p) + snd (h0 (fst p)) * snd (snd p)) (combine B x)).
Definition colI (B : cmat) (x : list C) : R :=
  rsum (map (fun p => fst (h0 (fst p)) * snd (snd p) - snd (h0 (fst p)) * fst (snd p)) (combine B x)).
Definition colQ (B : cmat) (x : list C) : R := rsum (map (fun p => fst (snd p) ^ 2 + snd (snd p) ^ 2) (combine B x)).
Definition col_m (B : cmat) (x : list C) : C := (colA B x / colS B x, colI B x / colS B x).
Definition col_lstsq (B : cmat) (x : list C) (_ : pyval) : res (list C * list R * nat * list R) :=
  if forallb (fun r => Nat.eqb (length r) 1) B && (if Rlt_dec 0 (colS B x) then true else false)
  then Ok ([col_m B x], [norm2 (csub (cmatvec B [col_m B x]) x)], 1%nat, [sqrt (colS B x)]) else Err LinAlgError.
(** the pseudo-inverse of a column of ones *)
Definition col_pinv (X : cmat) : res cmat := Ok [map (fun _ => RtoC (1 / INR (length X))) X].
Definition colL : lib :=
  {| l_parse := fun _ => None; l_lstsq := col_lstsq; l_pinv := col_pinv; l_inv := fun M => Ok M;
     l_svd := fun M => Ok (M, map (fun _ => 0) M, M); l_eigvals := fun M => Ok (map (fun _ => RtoC 0) M);
     l_is_PD := fun _ => true; l_spacing := fun _ => 0;
     l_mvn := fun _ m _ n => Ok (repeat m n); l_lomb := fun t x f => map (fun _ => 0) f;
     l_argsort := ins_argsort |}.

Lemma col_norm B x m : (forall r, In r B -> length r = 1%nat) ->
  norm2 (csub (cmatvec B [m]) x) =
  colS B x * (fst m ^ 2 + snd m ^ 2) - 2 * (fst m * colA B x + snd m * colI B x) + colQ B x.
Proof.
  unfold norm2, csub, cmatvec, colS, colA, colI, colQ. revert x. induction B as [|r B IH]; intros x H.
  - cbn. unfold rsum. cbn. ring.
  - destruct x as [|z x]; [cbn; unfold rsum; cbn; ring|]. cbn [map combine]. rewrite !rsum_cons, IH by (intros; apply H; now right).
    assert (Hr : length r = 1%nat) by (apply H; now left). destruct r as [|a [|? ?]]; try discriminate.
    unfold h0. cbn [fst snd hd]. unfold cdot. cbn. destruct a as [a1 a2], z as [z1 z2], m as [m1 m2]. cbn. ring.
Qed.
Lemma col_contract rc : lstsq_contract colL rc.
Proof.
  intros B x m r k s H. cbn [colL l_lstsq] in H. unfold col_lstsq in H.
  destruct (forallb _ B) eqn:E; cbn [andb] in H; [|discriminate]. destruct (Rlt_dec 0 (colS B x)) as [Hs|]; [|discriminate].
  assert (Hl : forall r, In r B -> length r = 1%nat).
  { rewrite forallb_forall in E. intros q Hq. apply Nat.eqb_eq. auto. }
  assert (D : forall m', norm2 (csub (cmatvec B [m']) x) = norm2 (csub (cmatvec B [col_m B x]) x) +
     colS B x * ((fst m' - fst (col_m B x)) ^ 2 + (snd m' - snd (col_m B x)) ^ 2)).
  { intros m'. rewrite !col_norm by exact Hl. unfold col_m. cbn [fst snd]. field. lra. }
  assert (R' : [col_m B x] = m /\ [norm2 (csub (cmatvec B [col_m B x]) x)] = r) by (split; congruence). clear H. destruct R' as [<- <-].
  split; [intros row Hr; now apply Hl|]. split.
  - intros m' Hm. destruct m' as [|a [|? ?]]; try discriminate. rewrite (D a).
    assert (0 <= (fst a - fst (col_m B x)) ^ 2) by apply pow2_ge_0. assert (0 <= (snd a - snd (col_m B x)) ^ 2) by apply pow2_ge_0. nra.
  - right. split; [reflexivity|]. intros m' Hm N. destruct m' as [|a [|? ?]]; try discriminate. rewrite (D a).
    assert (0 <= (fst a - fst (col_m B x)) ^ 2) by apply pow2_ge_0. assert (0 <= (snd a - snd (col_m B x)) ^ 2) by apply pow2_ge_0.
    assert (0 < (fst a - fst (col_m B x)) ^ 2 + (snd a - snd (col_m B x)) ^ 2).
    { destruct (Req_dec (fst a - fst (col_m B x)) 0) as [Z1|Z1]; [|assert (0 < (fst a - fst (col_m B x)) ^ 2) by (apply pow2_gt_0; auto); lra].
      destruct (Req_dec (snd a - snd (col_m B x)) 0) as [Z2|Z2]; [|assert (0 < (snd a - snd (col_m B x)) ^ 2) by (apply pow2_gt_0; auto); lra].
      exfalso. apply N. f_equal. apply injective_projections; lra. }
    nra.
Qed.
Lemma col_ok B x rc : (forall r, In r B -> length r = 1%nat) -> 0 < colS B x ->
  l_lstsq colL B x rc = Ok ([col_m B x], [norm2 (csub (cmatvec B [col_m B x]) x)], 1%nat, [sqrt (colS B x)]).
Proof.
  intros H Hs. cbn [colL l_lstsq]. unfold col_lstsq.
  replace (forallb _ B) with true by (symmetry; apply forallb_forall; intros r Hr; apply Nat.eqb_eq; auto).
  destruct (Rlt_dec 0 (colS B x)); [reflexivity|lra].
Qed.

(** ** five values, one of them far off, fitted by a constant *)
Definition X5 : cmat := repeat [RtoC 1] 5.
Definition y5 : list C := map RtoC [0; 0; 1; 5; 7].
Definition ones5 : list R := [1; 1; 1; 1; 1].
Definition kept5 : list R := [1; 1; 1; 1; 0].

Lemma X5_len : length X5 = length y5.
Proof. reflexivity. Qed.
Lemma X5_col : exists row, In row X5 /\ row <> [].
Proof. exists [RtoC 1]. split; [now left|discriminate]. Qed.

Lemma solve5 rc a b c d e : 0 < a ^ 2 + b ^ 2 + c ^ 2 + d ^ 2 + e ^ 2 ->
  exists ls, wsolve colL X5 y5 rc (map Fin [a; b; c; d; e]) = Ok ls /\
    ls_b ls = [RtoC ((c ^ 2 + 5 * d ^ 2 + 7 * e ^ 2) / (a ^ 2 + b ^ 2 + c ^ 2 + d ^ 2 + e ^ 2))].
Proof.
  intros H. unfold wsolve. replace (all_finite (map Fin [a; b; c; d; e])) with (Some [a; b; c; d; e]) by reflexivity.
  rewrite col_ok.
  - cbn [bind]. eexists. split; [reflexivity|]. cbn [ls_b]. f_equal. unfold col_m.
    match goal with |- (?p / ?s, ?q / ?s) = _ =>
      replace s with (a ^ 2 + b ^ 2 + c ^ 2 + d ^ 2 + e ^ 2) by (unfold colS, rsum; cbn; ring);
      replace p with (c ^ 2 + 5 * d ^ 2 + 7 * e ^ 2) by (unfold colA, rsum; cbn; ring);
      replace q with 0 by (unfold colI, rsum; cbn; ring) end.
    unfold RtoC. f_equal. unfold Rdiv. ring.
  - intros r Hr. cbn in Hr. repeat (destruct Hr as [<-|Hr]; [reflexivity|]). destruct Hr.
  - unfold colS, rsum. cbn. nra.
Qed.
Lemma lev5 : leverage colL X5 = Ok [1 / 5; 1 / 5; 1 / 5; 1 / 5; 1 / 5].
Proof.
  unfold leverage. cbn [colL l_pinv]. unfold col_pinv. cbn [bind]. f_equal.
  assert (E : forall x : R, Cmod (Cplus (Cmult (RtoC 1) (RtoC (1 / 5))) (RtoC 0)) = 1 / 5).
  { intros _. replace (Cplus _ _) with (RtoC (1 / 5)) by (apply injective_projections; cbn; ring). rewrite Cmod_R. apply Rabs_pos_eq. lra. }
  unfold X5, enumerate. cbn [repeat length seq combine map fst snd col nth INR]. unfold cdot. cbn [combine map csum fold_right fst snd].
  replace (1 / (1 + 1 + 1 + 1 + 1)) with (1 / 5) by lra. now rewrite (E 0).
Qed.
Lemma mis5 b : misfits X5 y5 [RtoC b] = map RtoC [0 - b; 0 - b; 1 - b; 5 - b; 7 - b].
Proof.
  unfold misfits, csub, X5, y5, cmatvec, cdot. cbn [repeat map combine fst snd csum fold_right].
  assert (E : forall p, Cminus (RtoC p) (Cplus (Cmult (RtoC 1) (RtoC b)) (RtoC 0)) = RtoC (p - b)) by (intros; apply injective_projections; cbn; ring).
  now rewrite !E.
Qed.
Lemma scale5 b : scale_is (misfits X5 y5 [RtoC b]) (1 / 0.6745).
Proof.
  rewrite mis5. exists (RtoC (1 - b)), 1. split; [|split; [|reflexivity]].
  - eexists. split; [reflexivity|]. split.
    + repeat (constructor; [|repeat (constructor; [unfold lex; cbn; lra|]); constructor]). constructor.
    + cbn. apply injective_projections; cbn; field.
  - assert (E : map (fun x => Cmod (Cminus x (RtoC (1 - b)))) (map RtoC [0 - b; 0 - b; 1 - b; 5 - b; 7 - b]) = [1; 1; 0; 4; 6]).
    { cbn [map]. assert (A : forall p q, Cmod (Cminus (RtoC p) (RtoC q)) = Rabs (p - q)).
      { intros p q. rewrite <- Cmod_R. f_equal. apply injective_projections; cbn; ring. }
      rewrite !A. replace (0 - b - (1 - b)) with (-1) by ring. replace (1 - b - (1 - b)) with 0 by ring.
      replace (5 - b - (1 - b)) with 4 by ring. replace (7 - b - (1 - b)) with 6 by ring.
      rewrite Rabs_R0. rewrite (Rabs_pos_eq 4), (Rabs_pos_eq 6) by lra. rewrite (Rabs_left (-1)) by lra. replace (- -1) with 1 by ring. reflexivity. }
    rewrite E. exists [0; 1; 1; 4; 6]. split; [|split].
    + apply Permutation_sym. apply (Permutation_middle [1; 1] [4; 6] 0).
    + repeat (constructor; [|repeat (constructor; [lra|]); constructor]). constructor.
    + cbn. lra.
Qed.
(** the weights after the first pass *)
Lemma next5 w phi : wf_of "talwar" = Some w -> weight_formula "talwar" = Some phi ->
  map w (r_normed (misfits X5 y5 [RtoC (13 / 5)])
    (map (fun h => xdiv x1 (xmul (Fin (2795 / 10 ^ 3)) (xsqrt (Fin (1 - h))))) [1 / 5; 1 / 5; 1 / 5; 1 / 5; 1 / 5])) = map Fin kept5.
Proof.
  intros Hw Hp.
  assert (N := next_formula X5 y5 "talwar" (2795 / 10 ^ 3) [1 / 5; 1 / 5; 1 / 5; 1 / 5; 1 / 5] w phi Hw Hp [RtoC (13 / 5)]).
  rewrite (N ltac:(lra) ltac:(repeat constructor; lra) _ (scale5 (13 / 5)) ltac:(lra)). clear N.
  rewrite mis5. assert (Ep : phi = fun r => if Rlt_dec r 1 then 1 else 0) by (apply Some_eq; rewrite <- Hp; reflexivity). subst phi.
  set (q := sqrt (1 - 1 / 5)).
  assert (Q1 : 0 < q) by (apply sqrt_lt_R0; lra). assert (Q2 : q * q = 4 / 5) by (unfold q; rewrite sqrt_sqrt; lra).
  assert (D : 0 < Rabs (2795 / 10 ^ 3) * q * (1 / 0.6745)) by (rewrite (Rabs_pos_eq (2795 / 10 ^ 3)) by lra; nra).
  assert (LT : forall x, Rabs x < 3 -> Cmod (RtoC x) / (Rabs (2795 / 10 ^ 3) * q * (1 / 0.6745)) < 1).
  { intros x Hx. rewrite Cmod_R. apply Rmult_lt_reg_r with (1 := D). unfold Rdiv at 1. rewrite Rmult_assoc, Rinv_l by lra.
    rewrite (Rabs_pos_eq (2795 / 10 ^ 3)) by lra. assert (0.89 < q) by nra. nra. }
  assert (GE : forall x, 4 < Rabs x -> ~ Cmod (RtoC x) / (Rabs (2795 / 10 ^ 3) * q * (1 / 0.6745)) < 1).
  { intros x Hx Q. rewrite Cmod_R in Q. apply (Rmult_lt_compat_r _ _ _ D) in Q. unfold Rdiv at 1 in Q. rewrite Rmult_assoc, Rinv_l in Q by lra.
    rewrite (Rabs_pos_eq (2795 / 10 ^ 3)) in Q by lra. assert (q < 0.9) by nra. nra. }
  assert (IL : forall x, Rabs x < 3 -> (if Rlt_dec (Cmod (RtoC x) / (Rabs (2795 / 10 ^ 3) * q * (1 / 0.6745))) 1 then 1 else 0) = 1).
  { intros x Hx. destruct (Rlt_dec _ 1) as [|Z]; [reflexivity|]. destruct Z. now apply LT. }
  assert (IG : forall x, 4 < Rabs x -> (if Rlt_dec (Cmod (RtoC x) / (Rabs (2795 / 10 ^ 3) * q * (1 / 0.6745))) 1 then 1 else 0) = 0).
  { intros x Hx. destruct (Rlt_dec _ 1) as [Z|]; [|reflexivity]. destruct (GE x Hx Z). }
  cbn [map combine fst snd]. fold q.
  rewrite (IL (0 - 13 / 5)), (IL (1 - 13 / 5)), (IL (5 - 13 / 5)) by (apply Rabs_def1; lra).
  rewrite (IG (7 - 13 / 5)) by (rewrite Rabs_pos_eq; lra).
  reflexivity.
Qed.

Lemma pass5_first rc : exists ls, wsolve colL X5 y5 rc (map (fun _ => x1) y5) = Ok ls /\ ls_b ls = [RtoC (13 / 5)].
Proof.
  destruct (solve5 rc 1 1 1 1 1 ltac:(lra)) as (ls & E & B). exists ls. split; [exact E|]. rewrite B. f_equal. f_equal. field.
Qed.
Lemma pass5_second rc : exists ls, wsolve colL X5 y5 rc (map Fin kept5) = Ok ls /\ ls_b ls = [RtoC (3 / 2)].
Proof.
  destruct (solve5 rc 1 1 1 1 0 ltac:(lra)) as (ls & E & B). exists ls. split; [exact E|]. rewrite B. f_equal. f_equal. field.
Qed.
Lemma one_range : Forall (fun a => 0 <= a <= 1) ones5 /\ Forall (fun a => 0 <= a <= 1) kept5.
Proof. split; unfold ones5, kept5; repeat (apply Forall_cons; [lra|]); apply Forall_nil. Qed.
Lemma ms5 w b : mean_square X5 y5 {| p_w := w; p_b := [RtoC b] |} =
  weighted_ss w (map RtoC [0 - b; 0 - b; 1 - b; 5 - b; 7 - b]) / rsum w.
Proof. unfold mean_square. cbn [p_w p_b]. now rewrite mis5. Qed.

Lemma run5_one rc tol : exists r, robustfit colL X5 y5 "talwar" None rc tol 1 = Ok r /\
  rf_b r = [RtoC (13 / 5)] /\ rf_w r = map Fin kept5 /\ rf_iterations r = 1%nat.
Proof.
  destruct (pass5_first rc) as (ls & E & B). unfold robustfit.
  replace (match dget tune_defaults "talwar" with Some t => Ok t | None => Err KeyError end) with (Ok (2795 / 10 ^ 3)) by reflexivity.
  cbn [bind]. replace (wfunc "talwar") with (Ok (fun r => Ok (map w_talwar r))) by reflexivity. cbn [bind].
  rewrite lev5. cbn [bind rf_loop]. rewrite E. cbn [bind].
  eexists. split; [reflexivity|]. cbn [rf_b rf_w rf_iterations Nat.eqb]. split; [exact B|]. split; [|reflexivity].
  rewrite residual_misfits, B. exact (next5 w_talwar _ eq_refl eq_refl).
Qed.
Lemma run5_two rc n : exists r, robustfit colL X5 y5 "talwar" None rc (1 / 2) (S (S n)) = Ok r /\
  rf_b r = [RtoC (3 / 2)] /\ rf_w r = map Fin kept5 /\ rf_rms_resid r = rms_of X5 y5 [RtoC (13 / 5)] /\ rf_iterations r = 2%nat.
Proof.
  destruct (pass5_first rc) as (ls & E & B). destruct (pass5_second rc) as (ls' & E' & B'). unfold robustfit.
  replace (match dget tune_defaults "talwar" with Some t => Ok t | None => Err KeyError end) with (Ok (2795 / 10 ^ 3)) by reflexivity.
  cbn [bind]. replace (wfunc "talwar") with (Ok (fun r => Ok (map w_talwar r))) by reflexivity. cbn [bind].
  rewrite lev5. cbn [bind rf_loop]. rewrite E. cbn [bind].
  assert (N := next5 w_talwar _ eq_refl eq_refl). rewrite residual_misfits, B.
  match goal with |- context [map w_talwar ?x] => replace (map w_talwar x) with (map Fin kept5) by (symmetry; exact N) end. clear N.
  rewrite E'. cbn [bind].
  assert (M1 : xdiv (Fin (ls_rsumsq ls)) (xsum (map (fun _ => x1) y5)) = Fin (8.24)).
  { destruct (wsolve_pass colL X5 y5 rc ones5 (col_contract rc) X5_len X5_col eq_refl ones5 ls E eq_refl (proj1 one_range)) as (_ & _ & M & _).
    transitivity (Fin (mean_square X5 y5 {| p_w := ones5; p_b := ls_b ls |})); [exact M|]. f_equal. rewrite B, ms5. unfold weighted_ss, rsum, ones5. cbn. lra. }
  assert (M2 : xdiv (Fin (ls_rsumsq ls')) (xsum (map Fin kept5)) = Fin (4.25)).
  { destruct (wsolve_pass colL X5 y5 rc ones5 (col_contract rc) X5_len X5_col eq_refl kept5 ls' E' eq_refl (proj2 one_range)) as (_ & _ & M & _).
    transitivity (Fin (mean_square X5 y5 {| p_w := kept5; p_b := ls_b ls' |})); [exact M|]. f_equal. rewrite B', ms5. unfold weighted_ss, rsum, kept5. cbn. lra. }
  rewrite M1, M2. cbn [it_meansq xsub xneg xadd xdiv]. destruct (Req_EM_T 8.24 0) as [Z|_]; [exfalso; lra|].
  replace (xlt (Fin ((8.24 + - (4.25)) / 8.24)) (Fin 0)) with false by (unfold xlt; cbn [xge]; destruct (Rle_dec 0 ((8.24 + - (4.25)) / 8.24)) as [|Z]; [reflexivity|lra]).
  replace (xlt (Fin ((8.24 + - (4.25)) / 8.24)) (Fin (1 / 2))) with true by (unfold xlt; cbn [xge]; destruct (Rle_dec (1 / 2) ((8.24 + - (4.25)) / 8.24)) as [Z|]; [lra|reflexivity]).
  eexists. split; [reflexivity|]. cbn [rf_b rf_w rf_iterations rf_rms_resid it_resid Nat.eqb]. split; [exact B'|]. split; [reflexivity|]. split; [|reflexivity].
  now apply rms_spec.
Qed.
(** the returned weights with the returned coefficients are not optimal, after one pass *)
Lemma not_optimal5 : ~ optimal X5 y5 kept5 [RtoC (13 / 5)].
Proof.
  intros O. specialize (O [RtoC (3 / 2)] eq_refl). rewrite !mis5 in O. unfold weighted_ss, rsum, kept5 in O. cbn in O. lra.
Qed.
Lemma rms5_differs : rms_of X5 y5 [RtoC (13 / 5)] <> rms_of X5 y5 [RtoC (3 / 2)].
Proof.
  unfold rms_of. rewrite !mis5. intros E. apply sqrt_inj in E; unfold norm2, rsum in *; cbn in *; lra.
Qed.
Lemma proj5 : exists P, l_pinv colL X5 = Ok P /\ projection (mat_mul X5 P) (length X5).
Proof.
  eexists. split; [reflexivity|].
  assert (E : forall i j, (i < 5)%nat -> (j < 5)%nat -> entry_at (mat_mul X5 [map (fun _ => RtoC (1 / INR (length X5))) X5]) i j = RtoC (1 / 5)).
  { intros i j Hi Hj. do 5 (destruct i as [|i]; [do 5 (destruct j as [|j]; [apply injective_projections; cbn; lra|]); lia|]). lia. }
  intros i j Hi Hj. change (length X5) with 5%nat in *. rewrite !E by assumption. split; [apply injective_projections; cbn; ring|].
  rewrite (map_ext_in _ (fun _ => RtoC (1 / 25))).
  - apply injective_projections; cbn; lra.
  - intros k Hk. apply in_seq in Hk. rewrite !E by lia. apply injective_projections; cbn; lra.
Qed.
(** constant data are fitted exactly *)
Lemma flat5 rc : exists ls, wsolve colL X5 (repeat (RtoC 3) 5) rc (map (fun _ => x1) (repeat (RtoC 3) 5)) = Ok ls /\
  cmatvec X5 (ls_b ls) = repeat (RtoC 3) 5.
Proof.
  unfold wsolve. replace (all_finite _) with (Some ones5) by reflexivity. rewrite col_ok.
  - cbn [bind]. eexists. split; [reflexivity|]. cbn [ls_b]. unfold col_m.
    match goal with |- cmatvec _ [(?p / ?s, ?q / ?s)] = _ =>
      replace s with 5 by (unfold colS, rsum; cbn; ring); replace p with 15 by (unfold colA, rsum; cbn; ring);
      replace q with 0 by (unfold colI, rsum; cbn; ring) end.
    unfold X5, cmatvec, cdot. cbn [repeat map combine csum fold_right fst snd].
    repeat f_equal; apply injective_projections; cbn; lra.
  - intros r Hr. cbn in Hr. repeat (destruct Hr as [<-|Hr]; [reflexivity|]). destruct Hr.
  - unfold colS, rsum. cbn. lra.
Qed.
(** rotating by ninety degrees changes the scale estimate *)
Definition tri : list C := [(0, 0); (1, 10); (2, 0)].
Lemma tri_scale : scale_is tri (sqrt 101 / 0.6745).
Proof.
  exists (1, 10), (sqrt 101). split; [|split; [|reflexivity]].
  - exists tri. split; [reflexivity|]. split; [|cbn; apply injective_projections; cbn; field].
    repeat (constructor; [|repeat (constructor; [unfold lex; cbn; lra|]); constructor]). constructor.
  - exists [0; sqrt 101; sqrt 101].
    assert (P : 0 <= sqrt 101) by apply sqrt_pos. split; [|split; [|cbn; lra]].
    + unfold tri. cbn [map]. replace (Cmod (Cminus (0, 0) (1, 10))) with (sqrt 101) by (unfold Cmod; f_equal; cbn; ring).
      replace (Cmod (Cminus (1, 10) (1, 10))) with 0 by (rewrite <- Cmod_0 at 1; f_equal; apply injective_projections; cbn; ring).
      replace (Cmod (Cminus (2, 0) (1, 10))) with (sqrt 101) by (unfold Cmod; f_equal; cbn; ring). apply perm_swap.
    + repeat (constructor; [|repeat (constructor; [lra|]); constructor]). constructor.
Qed.
Lemma tri_turned : scale_is (map (Cmult Ci) tri) (2 / 0.6745).
Proof.
  assert (E : map (Cmult Ci) tri = [(0, 0); (-10, 1); (0, 2)]) by (unfold tri; cbn [map]; repeat f_equal; apply injective_projections; cbn; ring).
  rewrite E. exists (0, 0), 2. split; [|split; [|reflexivity]].
  - exists [(-10, 1); (0, 0); (0, 2)]. split; [apply perm_swap|]. split; [|cbn; apply injective_projections; cbn; field].
    repeat (constructor; [|repeat (constructor; [unfold lex; cbn; lra|]); constructor]). constructor.
  - exists [0; 2; sqrt 101].
    assert (P : 2 <= sqrt 101) by (rewrite <- (sqrt_square 2) by lra; apply sqrt_le_1; lra). split; [|split; [|cbn; lra]].
    + cbn [map]. replace (Cmod (Cminus (0, 0) (0, 0))) with 0 by (rewrite <- Cmod_0 at 1; f_equal; apply injective_projections; cbn; ring).
      replace (Cmod (Cminus (-10, 1) (0, 0))) with (sqrt 101) by (unfold Cmod; f_equal; cbn; ring).
      replace (Cmod (Cminus (0, 2) (0, 0))) with 2 by (unfold Cmod; rewrite <- (sqrt_square 2) at 1 by lra; f_equal; cbn; ring). apply perm_skip, perm_swap.
    + repeat (constructor; [|repeat (constructor; [lra|]); constructor]). constructor.
Qed.

(** ** forms used by the property theorems *)
Lemma weights_lemma name f rs ws : wfunc name = Ok f -> Forall (fun r => 0 <= r) rs -> f (map Fin rs) = Ok ws ->
  exists phi, weight_formula name = Some phi /\ ws = map (fun r => Fin (phi r)) rs /\
    phi 0 = 1 /\ (forall r, 0 <= r -> 0 <= phi r <= 1) /\ (forall r s, 0 <= r -> r <= s -> phi s <= phi r).
Proof.
  intros Hf Hr H. destruct (wfunc_spec _ _ Hf) as [[_ E]|(w & phi & Hw & Hp & E)]; rewrite E in H; [discriminate|].
  injection H as <-. exists phi. split; [exact Hp|]. split; [|exact (phi_facts _ _ Hp)].
  rewrite map_map. apply map_ext_in. intros r Hin. rewrite Forall_forall in Hr. apply (wf_phi _ _ _ Hw Hp). auto.
Qed.
Lemma scale_lemma z : scale_is z (sigma_hat z) /\ (forall s, scale_is z s -> s = sigma_hat z) /\ 0 <= sigma_hat z.
Proof.
  assert (S : scale_is z (sigma_hat z)) by now apply scale_spec. split; [exact S|]. split; [intros s; apply scale_spec|].
  exact (scale_nonneg _ _ S).
Qed.
Lemma scale_moves z c d : z <> [] ->
  sigma_hat (map (fun x => Cplus (Cmult (RtoC c) x) d) z) = Rabs c * sigma_hat z.
Proof.
  intros N. symmetry. apply scale_spec.
  replace (map (fun x => Cplus (Cmult (RtoC c) x) d) z) with (map (Cplus d) (map (Cmult (RtoC c)) z))
    by (rewrite map_map; apply map_ext; intros; ring).
  apply scale_shift; [destruct z; [congruence|discriminate]|]. apply scale_scale; [exact N|]. now apply scale_spec.
Qed.
Lemma scale_turned : exists z, sigma_hat (map (Cmult Ci) z) <> sigma_hat z.
Proof.
  exists tri. assert (A := proj1 (scale_spec _ _) tri_scale). assert (B := proj1 (scale_spec _ _) tri_turned). rewrite <- A, <- B.
  assert (10 <= sqrt 101) by (rewrite <- (sqrt_square 10) by lra; apply sqrt_le_1; lra). lra.
Qed.
Lemma stale_weights : exists X y r w, (forall rc, lstsq_contract colL rc) /\ length X = length y /\ (exists row, In row X /\ row <> []) /\
  robustfit colL X y "talwar" None (PNum 1) (1 / 10 ^ 3) 1 = Ok r /\ rf_w r = map Fin w /\ ~ optimal X y w (rf_b r).
Proof.
  destruct (run5_one (PNum 1) (1 / 10 ^ 3)) as (r & E & B & W & _). exists X5, y5, r, kept5.
  split; [apply col_contract|]. split; [exact X5_len|]. split; [exact X5_col|]. split; [exact E|]. split; [exact W|].
  rewrite B. exact not_optimal5.
Qed.
Lemma stale_rms : exists X y r, (forall rc, lstsq_contract colL rc) /\ length X = length y /\ (exists row, In row X /\ row <> []) /\
  robustfit colL X y "talwar" None (PNum 1) (1 / 2) 50 = Ok r /\ rf_rms_resid r <> rms_of X y (rf_b r).
Proof.
  destruct (run5_two (PNum 1) 48) as (r & E & B & W & M & _). exists X5, y5, r.
  split; [apply col_contract|]. split; [exact X5_len|]. split; [exact X5_col|]. split; [exact E|]. rewrite B, M. exact rms5_differs.
Qed.
