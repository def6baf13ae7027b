(** Property C90: the units of the data of a whole analysis. *)
From Coq Require Import List String Reals Lia Lra.
From Coquelicot Require Import Coquelicot.
From Verif Require Import M_Base M_Lib M_Options M_Time M_Slvinit M_Select M_Ellipse M_Robust M_Period M_Conf M_Diag M_Solve M_Recon
  S_Dict S_Options S_Slv S_Order S_Fit S_Recon S_Model S_Errors S_Robust S_RobustErr S_Units
  L_SolveInv L_Example L_Example5 L_Example7 L_Example8 L_Model11 L_Affine2 L_Example11 L_Example12 L_Example13 L_Example15 L_Units3.
Import ListNotations.
Open Scope R_scope.
Open Scope string_scope.

(** Data multiplied by k > 0, ordinary least squares: the whole result is the same in the other units, including the order
    of the constituents, inferred constituents, percent energies, signal-to-noise ratios and the diagnostics table. *)
Theorem C90_ols : forall L t u v u' v' lat opts sm c c' k, 0 < k ->
  let sm' := map (fun x => (fst x, Cmult (RtoC k) (snd x))) sm in
  analysis L t u v lat opts sm c -> analysis L t u' v' lat opts sm' c' -> is2d v = is2d v' ->
  lstsq_minimises L -> setting opts "method" (PStr "ols") -> approximate (c_opt c) = false -> identifiable c (map fst sm) -> NoDup (c_name c) ->
  no_draws L opts c -> c' = in_units k c.
Proof. exact units_ols. Qed.
Print Assumptions C90_ols.

(** The same for a robust analysis, also with approximate inference. *)
Theorem C90_robust : forall L t u v u' v' lat opts sm c c' k mth, 0 < k ->
  let sm' := map (fun x => (fst x, Cmult (RtoC k) (snd x))) sm in
  analysis L t u v lat opts sm c -> analysis L t u' v' lat opts sm' c' -> is2d v = is2d v' ->
  (forall rc, lstsq_contract L rc) -> setting opts "method" mth -> mth <> PStr "ols" -> no_draws L opts c ->
  c' = in_units k c.
Proof. exact units_robust. Qed.
Print Assumptions C90_robust.

(** M2 plus noise with a gap, and the same data doubled: scalar and vector data, white and coloured noise *)
Example C90_example_ols : forall wh tw : bool, exists L t u v u' v' lat opts (sm : list (R * C)) (c c' : coef),
  let sm' := map (fun x => (fst x, Cmult (RtoC 2) (snd x))) sm in
  analysis L t u v lat opts sm c /\ analysis L t u' v' lat opts sm' c' /\ is2d v = tw /\ is2d v = is2d v' /\
  lstsq_minimises L /\ setting opts "method" (PStr "ols") /\ setting opts "conf_int" (PStr "linear") /\ setting opts "white" (PBool wh) /\
  approximate (c_opt c) = false /\ identifiable c (map fst sm) /\ NoDup (c_name c) /\ no_draws L opts c /\
  exists r, In r (rows c).
Proof.
  intros wh tw. cbv zeta.
  set (q := (if tw then ((1, 2), ((2, 1), (1, 0), (5, 6))) else (RtoC 1, ((1, 2), Cconj (1, 2), RtoC 3))) : q4).
  set (l := [q; scale_q 2 (RtoC 0) q]).
  assert (RL : tw = false -> forall y, In y (dat q) -> snd y = 0).
  { intros T. unfold q. rewrite T. apply (data_real false (RtoC 1) (1, 2) (Cconj (1, 2)) (RtoC 3)); [|reflexivity]. intros _. cbn. auto. }
  assert (RL' : tw = false -> forall y, In y (dat (scale_q 2 (RtoC 0) q)) -> snd y = 0).
  { intros T. unfold q. rewrite T. unfold scale_q. cbn [fst snd].
    apply (data_real false (Cmult (RtoC 2) (RtoC 1)) (Cmult (RtoC 2) (1, 2)) (Cmult (RtoC 2) (Cconj (1, 2))) (Cplus (Cmult (RtoC 2) (RtoC 3)) (RtoC 0))); [|reflexivity].
    intros _. split; [cbn; ring|]. split; [apply injective_projections; cbn; ring|cbn; ring]. }
  destruct (c_run l wh tw q (or_introl eq_refl) RL) as (c & AN & T & N1 & N2 & EQ & N3 & RT & NM & LI).
  destruct (c_run l wh tw (scale_q 2 (RtoC 0) q) (or_intror (or_introl eq_refl)) RL') as (c' & AN' & _).
  exists (casesL l), five_t, (cu q), (cv tw q), (cu (scale_q 2 (RtoC 0) q)), (cv tw (scale_q 2 (RtoC 0) q)), (Some 45), (cw_opts wh), (csm q), c, c'.
  split; [exact AN|]. split.
  { refine (eq_ind _ (fun s => analysis (casesL l) five_t _ _ (Some 45) (cw_opts wh) s c') AN' _ _).
    rewrite (scale_sm 2 (RtoC 0) q (fun x => 0)). apply map_ext. intros x. apply f_equal. apply injective_projections; cbn; ring. }
  split; [unfold cv; now destruct tw|]. split; [unfold cv; now destruct tw|].
  split; [apply cases_minimises|].
  assert (SC : setting (cw_opts wh) "conf_int" (PStr "linear")) by (right; split; [cbn; intros K; repeat (destruct K as [K|K]; [discriminate|]); exact K|cbn; tauto]).
  repeat (split; [first [exact SC | left; cbn; tauto | right; split; [cbn; intros K; repeat (destruct K as [K|K]; [discriminate|]); exact K|cbn; tauto]]|]).
  split; [|split; [exact (c_identifiable c N1 N2 N3 RT NM LI)|split; [rewrite NM; repeat constructor; cbn; tauto|split]]].
  - apply approximate_none.
    assert (Q : setting (cw_opts wh) "infer" PNone) by first [left; cbn; tauto | right; split; [cbn; intros K; repeat (destruct K as [K|K]; [discriminate|]); exact K|cbn; tauto]].
    exact (no_infer _ _ _ _ _ _ _ _ AN Q).
  - right. split; [exact SC|]. right. left. exact EQ.
  - unfold rows. rewrite NM. eexists. left. reflexivity.
Qed.
(** seven samples of M2 with noise and a robust fit, in metres and in centimetres *)
Example C90_example_robust : exists L t u u' lat opts sm c c' r w, let sm' := map (fun x => (fst x, Cmult (RtoC 100) (snd x))) sm in
  analysis L t u None lat opts sm c /\ analysis L t u' None lat opts sm' c' /\ (forall rc, lstsq_contract L rc) /\
  setting opts "method" (PStr "robust") /\ no_draws L opts c /\ In r (rows c) /\ c_weights c = map Fin w /\ nth 1 w 0 <> nth 2 w 0.
Proof.
  destruct (run8 1 (or_introl eq_refl)) as (c & AN & T & N1 & N2 & N3 & IN & RT & NM & LI & WE & ME & r & Hr & _).
  destruct (run8 100 (or_intror (or_introl eq_refl))) as (c' & AN' & _).
  exists L8, t7, (u8 1), (u8 100), (Some 45), opts7, (sm8 1), c, c', r, W7. cbv zeta. split; [exact AN|]. split.
  { refine (eq_ind _ (fun s => analysis L8 t7 _ _ (Some 45) opts7 s c') AN' _ _). unfold sm8, ext7, data8, data7. cbn [map combine fst snd].
    repeat (apply f_equal2; [apply f_equal2; [reflexivity|apply injective_projections; cbn; ring]|]). reflexivity. }
  split; [intros rc; apply units_contract; [exact cos_sin_one|exact sin_al]|]. split; [left; cbn; tauto|].
  split; [right; split; [left; cbn; tauto|left; left; cbn; tauto]|]. split; [rewrite Hr; now left|]. split; [exact WE|].
  cbn [W7 nth]. assert (H := wt_12). lra.
Qed.
