(** Which constituents can be corrected at the equator. *)
From Coq Require Import Lia Lra Permutation.
From Verif Require Import M_Base M_Lib M_Tables M_Const M_Options M_Time M_Slvinit M_Harmonics M_Select M_Ellipse M_Diag M_Solve M_Recon
  S_Dict S_Options S_Basis S_Tables S_Harm S_Equator L_Base L_Tables L_Harm L_Harm2 L_Harm3 L_Nodal.
Open Scope R_scope.

Lemma nth_error_both {A B} (l : list A) (l' : list B) j a b : nth_error (combine l l') j = Some (a, b) -> nth_error l j = Some a /\ nth_error l' j = Some b.
Proof. revert l l'. induction j as [|j IH]; intros [|x l] [|y l'] H; cbn in *; try discriminate; [injection H as <- <-; auto|auto]. Qed.
Lemma latfac_calm il : il <> 1%nat -> exists r, latfac 0 il = Fin r.
Proof. intros H. unfold latfac. destruct il as [|[|[|il]]]; eauto. congruence. Qed.
Lemma sat_mat_calm jd j z : nth_error (sat_mat jd 0) j = Some z -> nth_error sat_ilatfac j <> Some 1%nat -> z <> None.
Proof.
  unfold sat_mat, sat_rr. rewrite nth_error_map. intros H N. destruct (nth_error (combine _ (sat_uu jd)) j) as [[r u]|] eqn:E; [|discriminate].
  injection H as <-. apply nth_error_both in E. destruct E as [E _]. rewrite nth_error_map in E.
  destruct (nth_error (combine sat_amprat sat_ilatfac) j) as [[q il]|] eqn:E2; [|discriminate]. cbn [option_map fst snd] in E. injection E as E.
  apply nth_error_both in E2. destruct E2 as [_ E2]. assert (Hil : il <> 1%nat) by congruence. destruct (latfac_calm il Hil) as [x Hx]. rewrite Hx in E. 
  unfold xmul in E. rewrite <- E. discriminate.
Qed.
Lemma iconst_pos j a : nth_error sat_iconst j = Some a -> (1 <= a)%nat.
Proof. intros H. apply Nat.leb_le. exact (proj1 (forallb_forall _ _) sat_pos_b a (nth_error_In _ _ H)). Qed.
Lemma sat_F_calm jd k : (k < 146)%nat -> ~ diurnal_satellite k -> exists z, nth k (sat_F jd 0) None = Some z.
Proof.
  intros Hk N. rewrite sat_F_nth by exact Hk. unfold sat_sum.
  destruct (ocsum_some (map snd (filter (fun p => Nat.eqb (pred (fst p)) k) (combine sat_iconst (sat_mat jd 0))))) as [z ->].
  - intros z Hz. apply in_map_iff in Hz. destruct Hz as ((a & b) & E & Hin). cbn [snd] in E. subst b. apply filter_In in Hin. destruct Hin as [Hin EK]. cbn [fst] in EK.
    apply Nat.eqb_eq in EK. destruct (In_nth_error _ _ Hin) as [j Hj]. apply nth_error_both in Hj. destruct Hj as [J1 J2].
    apply (sat_mat_calm jd j z J2). intros D. apply N. exists j. split; [|exact D]. rewrite J1. f_equal. assert (P := iconst_pos _ _ J1). lia.
  - cbn. eauto.
Qed.
Lemma calm_cols jd k : calm k -> (exists f, nth k (F_col jd 0) None = Some f) /\ exists u, nth k (U_col jd 0) None = Some u.
Proof.
  assert (P : forall j, is_primary j -> ~ diurnal_satellite j -> (exists f, nth j (F_col jd 0) None = Some f /\ 0 <= f) /\ exists u, nth j (U_col jd 0) None = Some u).
  { intros j Hj N. destruct (sat_F_calm jd j (proj1 (proj1 (primary_in j) Hj)) N) as [z Ez]. rewrite F_primary, U_primary, Ez by assumption. cbn [option_map].
    split; [exists (Cmod z); split; [reflexivity|apply Cmod_ge_0]|eauto]. }
  intros [[Hp N]|[Hs N]].
  - destruct (P k Hp N) as [(f & F1 & _) U]. split; [eauto|exact U].
  - rewrite F_col_eq, U_col_eq by assumption. split.
    + destruct (oprod_pos (map (fun r => option_map (fun f => rpow f (Rabs (row_coef r))) (nth (row_parent r) (F_col jd 0) None)) (rows_of k))) as (f & E & _); [|eauto].
      intros z Hz. apply in_map_iff in Hz. destruct Hz as (r & <- & Hr). destruct (P _ (row_parent_primary k r Hr Hs) (N r Hr)) as [(f & -> & _) _].
      eexists. split; [reflexivity|apply rpow_pos].
    + apply osum_ex. intros z Hz. apply in_map_iff in Hz. destruct Hz as (r & <- & Hr). destruct (P _ (row_parent_primary k r Hr Hs) (N r Hr)) as [_ (u & ->)]. cbn. eauto.
Qed.
Lemma oprod_all l x : oprod l = Some x -> forall z, In z l -> exists y, z = Some y.
Proof.
  unfold oprod. revert x. induction l as [|a l IH]; intros x H z []; cbn [fold_right] in H; destruct a as [a|]; try discriminate; [subst; eauto|].
  destruct (fold_right omul (Some 1) l) eqn:E; [|discriminate]. eapply IH; eauto.
Qed.
Lemma cols_calm jd k : (k < 146)%nat -> (exists f, nth k (F_col jd 0) None = Some f) -> calm k.
Proof.
  intros Hk [f Hf]. destruct (shallow_or_primary k Hk) as [Hs|Hp].
  - right. split; [exact Hs|]. intros r Hr D. rewrite F_col_eq in Hf by exact Hs.
    destruct (oprod_all _ _ Hf _ (in_map _ _ _ Hr)) as [y Hy]. cbv beta in Hy.
    rewrite (proj1 (F_equator jd (row_parent r) (row_parent_primary k r Hr Hs) D)) in Hy. discriminate.
  - left. split; [exact Hp|]. intros D. rewrite (proj1 (F_equator jd k Hp D)) in Hf. discriminate.
Qed.
Lemma calm_basis g tref x k : (k < 146)%nat -> NodsatNone g = true \/ calm k -> exists e, basis_at g tref 0 x k = Some e.
Proof.
  intros Hk Hc. unfold basis_at, wave. destruct (V_at_some g tref x k Hk) as [v ->]. unfold F_at, U_at. destruct (NodsatNone g) eqn:N; [eauto|].
  destruct Hc as [Hc|Hc]; [discriminate|]. destruct (calm_cols (if NodsatLint g then tref else x) k Hc) as [[f ->] [u ->]]. eauto.
Qed.
Lemma basis_calm g tref x k : (k < 146)%nat -> NodsatNone g = false -> (exists e, basis_at g tref 0 x k = Some e) -> calm k.
Proof.
  intros Hk N [e H]. unfold basis_at, wave, F_at in H. rewrite N in H. destruct (nth k (F_col (if NodsatLint g then tref else x) 0) None) as [f|] eqn:E; [|discriminate].
  exact (cols_calm _ k Hk (ex_intro _ _ E)).
Qed.
