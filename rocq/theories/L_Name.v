(** A string where a list of names is expected. *)
From Coq Require Import Lia Lra Ascii Permutation.
From Verif Require Import M_Base M_Lib M_Tables M_Const M_Options M_Time M_Slvinit M_Harmonics M_Select M_Diag M_Solve M_Recon
  S_Dict S_Options S_Slv S_Order S_Fit S_Basis S_Recon L_Base L_Options L_SolveInv L_OptSolve L_Tables L_Select L_SelOrder L_Recon L_Recon2 L_Recon3 L_Recon4 L_Recon5 L_Recon6.
Open Scope R_scope.
Open Scope string_scope.

Lemma substring_all s : substring 0 (String.length s) s = s.
Proof. induction s as [|a s IH]; [reflexivity|]. cbn. now rewrite IH. Qed.
Lemma substring_split n m s : exists a b, (s = a ++ substring n m s ++ b)%string.
Proof.
  revert n m. induction s as [|x s IH]; intros n m.
  - exists "", "". destruct n, m; reflexivity.
  - destruct n as [|n].
    + destruct m as [|m]; [now exists "", (String x s)|]. destruct (IH 0%nat m) as (a & b & E). exists "". cbn.
      assert (G : forall s m, exists b, (s = substring 0 m s ++ b)%string).
      { induction s0 as [|y s0 IHs]; intros [|k]; [now exists ""|now exists ""|now exists (String y s0)|].
        destruct (IHs k) as (b' & E'). exists b'. cbn. now rewrite <- E'. }
      destruct (G s m) as (b' & E'). exists b'. now rewrite <- E'.
    + destruct (IH n m) as (a & b & E). exists (String x a), b. cbn. now rewrite <- E.
Qed.
Lemma prefix_cat a b : String.prefix a (a ++ b) = true.
Proof. induction a as [|x a IH]; [now destruct b|]. cbn. destruct (ascii_dec x x); [exact IH|congruence]. Qed.
Lemma index_cat a n b : String.index 0 n (a ++ n ++ b) <> None.
Proof.
  induction a as [|x a IH]; cbn [append].
  - destruct (n ++ b) as [|y s] eqn:E; [destruct n; [discriminate|discriminate]|]. cbn [String.index]. rewrite <- E, prefix_cat. discriminate.
  - cbn [String.index]. destruct (String.prefix n (String x (a ++ n ++ b))); [discriminate|]. destruct (String.index 0 n (a ++ n ++ b)); [discriminate|congruence].
Qed.
Lemma substring_iff n s : is_substring n s = true <-> exists a b, s = (a ++ n ++ b)%string.
Proof.
  unfold is_substring. split.
  - destruct (String.index 0 n s) as [k|] eqn:E; [|discriminate]. intros _. apply index_correct1 in E.
    destruct (substring_split k (String.length n) s) as (a & b & H). rewrite E in H. eauto.
  - intros (a & b & ->). assert (K := index_cat a n b). now destruct (String.index 0 n (a ++ n ++ b)).
Qed.

Lemma made_string L t nd c e s mS mP o tn : well_formed c -> normalize_time (l_parse L) t e = Ok tn ->
  reconstruct L t nd c e (CStr s) mS mP = Ok o -> exists keep,
  (forall r, In r (rows c) -> (keep r = true <-> exists n a b, w_name r = Some n /\ s = (a ++ n ++ b)%string)) /\
  made_of c (filter keep (rows c)) tn (ro_series o).
Proof.
  intros W E H. exists (chosen c (CStr s) mS mP). split; [|eapply made_chosen; eauto].
  intros r Hr. destruct (w_name_some _ _ Hr) as [n En]. unfold chosen. rewrite En, substring_iff. split.
  - intros (a & b & ->). eauto.
  - intros (n' & a & b & Hn & ->). injection Hn as <-. eauto.
Qed.

(** a coefficient set with O1 and SO1 *)
Definition two_opt : optr :=
  {| o_twodim := false; o_equi := true; o_conf_int := false; o_cnstit := PSeq [PStr "O1"; PStr "SO1"]; o_notrend := true;
     o_nodsatlint := false; o_nodsatnone := true; o_gwchlint := false; o_gwchnone := true; o_infer := None; o_rmin := 1;
     o_linci := false; o_white := false; o_nrlzn := 200; o_nodiagn := true; o_ordercnstit := PStr "frequency";
     o_method := PStr "ols"; o_robust_kw := PNone; o_epoch := PNone |}.
Definition two_coef : coef :=
  {| c_name := ["O1"; "SO1"]; c_frq := [nth 12 (linearized_freqs 730000) 0; nth 26 (linearized_freqs 730000) 0]; c_lind := [12%nat; 26%nat]; c_reftime := 730000; c_lat := 45;
     c_opt := two_opt; c_nNR := 2; c_nR := 0; c_nI := 0; c_weights := [Fin 1]; c_g := [0; 0]; c_A := Some [1; 1]; c_Lsmaj := None;
     c_Lsmin := None; c_theta := None; c_mean := Some 0; c_slope := None; c_umean := None; c_vmean := None; c_uslope := None;
     c_vslope := None; c_g_ci := None; c_A_ci := None; c_Lsmaj_ci := None; c_Lsmin_ci := None; c_theta_ci := None; c_PE := None;
     c_SNR := None; c_diagn := None |}.
Lemma two_wf : well_formed two_coef.
Proof.
  constructor.
  - unfold aligned. cbn [c_name c_frq c_lind c_g c_A c_Lsmaj c_Lsmin c_theta c_g_ci c_A_ci c_Lsmaj_ci c_Lsmin_ci c_theta_ci c_PE c_SNR two_coef length]. do 3 (split; [reflexivity|]).
    repeat (split; [intros l Hl; first [discriminate|injection Hl as <-; reflexivity]|]). intros l Hl. discriminate.
  - reflexivity.
  - discriminate.
  - intros _. split; [reflexivity|]. split; [now exists [1; 1]|]. split; [now exists 0|]. split; discriminate.
Qed.
Lemma still_row r i : w_lind r = Some i -> w_g r = Some 0 -> w_A r = Some (Some 1) -> tide two_coef 730000 r = Some (1, 0).
Proof.
  intros El Eg Ea. unfold tide. rewrite El, Eg, Ea. unfold F_at, U_at, V_at. generalize (nth i (linearized_freqs (c_reftime two_coef)) 0). intros f.
  cbn [flags_of two_coef c_opt two_opt o_nodsatlint o_nodsatnone o_gwchlint o_gwchnone o_twodim c_reftime NodsatNone GwchNone].
  unfold scalar_tide, deg. replace (2 * PI * (24 * (730000 - 730000) * f + 0) - 0 * (PI / 180)) with 0 by ring. rewrite cos_0. do 2 f_equal. ring.
Qed.
Lemma two_rows : exists r r', rows two_coef = [r; r'] /\ w_name r = Some "O1" /\ w_name r' = Some "SO1" /\ tide two_coef 730000 r = Some (1, 0) /\ tide two_coef 730000 r' = Some (1, 0).
Proof.
  unfold rows. cbn [two_coef c_name length seq map]. do 2 eexists. split; [reflexivity|]. split; [reflexivity|]. split; [reflexivity|].
  split; eapply still_row; reflexivity.
Qed.
Lemma string_or_list L : exists a b, 
  reconstruct L (TNum [Fin 730000]) 1 two_coef (PStr "python") (CStr "SO1") 0 0 = Ok a /\ ro_series a = Scalar [Fin 2] /\
  reconstruct L (TNum [Fin 730000]) 1 two_coef (PStr "python") (CSeq ["SO1"]) 0 0 = Ok b /\ ro_series b = Scalar [Fin 1].
Proof.
  destruct two_rows as (r & r' & E & N & N' & T & T'). 
  assert (V1 : value_u two_coef (CStr "SO1") 0 0 730000 = Fin 2).
  { unfold value_u. assert (K : filter (chosen two_coef (CStr "SO1") 0 0) (rows two_coef) = [r; r']) by (rewrite E; cbn [filter]; unfold chosen; rewrite N, N'; reflexivity). rewrite K.
    cbn [tides]. rewrite T, T'. cbn. f_equal. ring. }
  assert (V2 : value_u two_coef (CSeq ["SO1"]) 0 0 730000 = Fin 1).
  { unfold value_u. assert (K : filter (chosen two_coef (CSeq ["SO1"]) 0 0) (rows two_coef) = [r']) by (rewrite E; cbn [filter]; unfold chosen; rewrite N, N'; reflexivity). rewrite K.
    cbn [tides]. rewrite T'. cbn. f_equal. ring. }
  rewrite !(reconstruct_eq _ _ _ _ _ _ _ _ two_wf). cbn [Nat.ltb Nat.leb normalize_time bind]. rewrite <- V1, <- V2.
  do 2 eexists. split; [reflexivity|]. split; [reflexivity|]. split; reflexivity.
Qed.

Lemma long_names : forall n, In n const_name -> String.length n <> 1%nat.
Proof.
  assert (C : forallb (fun n => negb (Nat.eqb (String.length n) 1)) const_name = true) by (vm_compute; reflexivity).
  rewrite forallb_forall in C. intros n Hn E. specialize (C n Hn). rewrite E in C. discriminate.
Qed.
Lemma string_names tref m s inf : s <> "auto" -> s <> "" -> ut_cnstitsel tref m (PStr s) inf = Err KeyError.
Proof.
  intros Ha Hs. unfold ut_cnstitsel. replace (initial_lind m (PStr s)) with (@Err (list nat) KeyError); [reflexivity|].
  unfold initial_lind. cbn [eq_str as_names bind]. apply String.eqb_neq in Ha. rewrite Ha.
  destruct s as [|x s]; [congruence|]. cbn [list_ascii_of_string map mapM].
  destruct (constit_index (String x "")) as [i|e] eqn:E.
  - exfalso. apply constit_index_iff, nth_error_In, long_names in E. now apply E.
  - revert E. unfold constit_index. destruct (dget constit_index_dict (String x "")); [discriminate|]. intros K. now injection K as <-.
Qed.
Lemma string_solve L t u v lat opts s : unique_keys opts -> setting opts "constit" (PStr s) -> s <> "auto" -> s <> "" ->
  forall c, solve L t u v lat opts <> Ok c.
Proof.
  intros U H Ha Hs c E. destruct (solve_inv _ _ _ _ _ _ _ E) as [(compat & si & la & o & r & B & xr & m & W & c1 & c2 & S1 & S2 & S3 & S4 & S5 & _)].
  destruct (used_options opts (is2d v) (si_equi si) U compat _ S1 S4) as (_ & _ & _ & _ & _ & _ & _ & _ & U9 & _).
  rewrite (setting_val _ "constit" _ U ltac:(cbn; tauto) H) in U9. rewrite U9, string_names in S5 by assumption. discriminate.
Qed.
