(** C88: units and vertical datum of the data of an ordinary least-squares analysis. *)
From Coq Require Import List String Reals Lia Lra Permutation.
From Coquelicot Require Import Coquelicot.
From Verif Require Import M_Base M_Lib M_Options M_Time M_Slvinit M_Select M_Ellipse M_Robust M_Period M_Conf M_Diag M_Solve M_Recon S_Dict S_Options S_Slv S_Order S_Fit S_Recon S_Model S_Errors S_RobustErr
  L_SolveInv L_Example L_Example5 L_Example7 L_Example8 L_Example13 L_Affine2 L_Affine3.
Import ListNotations.
Open Scope R_scope.
Open Scope string_scope.

(** white noise: data k * x + mean + trend have the rows of x with amplitudes times k, and the half-widths of the
    amplitudes times k; those of the angles are unchanged *)
Theorem C88_white : forall L t u v u' v' lat opts sm c c' k be ga, 0 < k ->
  let sm' := map (fun x => (fst x, Cplus (Cplus (Cmult (RtoC k) (snd x)) be) (Cmult (RtoC (fst x - c_reftime c)) ga))) sm in
  analysis L t u v lat opts sm c -> analysis L t u' v' lat opts sm' c' -> is2d v = is2d v' ->
  lstsq_minimises L -> inv_exact L ->
  setting opts "method" (PStr "ols") -> setting opts "infer" PNone -> setting opts "conf_int" (PStr "linear") -> setting opts "white" (PBool true) ->
  (params c < length sm)%nat -> identifiable c (map fst sm) -> NoDup (c_name c) -> (o_notrend (c_opt c) = true -> ga = RtoC 0) ->
  forall r, In r (rows c) -> exists r', In r' (rows c') /\ row_like k eq r r' /\ widths_scaled k r r'.
Proof. exact intervals_scaled. Qed.
Print Assumptions C88_white.

(** white or coloured noise: also needs evenly spaced times, or a Lomb-Scargle periodogram that is quadratic in the data *)
Theorem C88_coloured : forall L t u v u' v' lat opts sm c c' k be ga, 0 < k ->
  let sm' := map (fun x => (fst x, Cplus (Cplus (Cmult (RtoC k) (snd x)) be) (Cmult (RtoC (fst x - c_reftime c)) ga))) sm in
  analysis L t u v lat opts sm c -> analysis L t u' v' lat opts sm' c' -> is2d v = is2d v' ->
  lstsq_minimises L -> inv_exact L ->
  setting opts "method" (PStr "ols") -> setting opts "infer" PNone -> setting opts "conf_int" (PStr "linear") -> o_equi (c_opt c) = true \/ lomb_quadratic L ->
  (params c < length sm)%nat -> identifiable c (map fst sm) -> NoDup (c_name c) -> (o_notrend (c_opt c) = true -> ga = RtoC 0) ->
  forall r, In r (rows c) -> exists r', In r' (rows c') /\ row_like k eq r r' /\ widths_scaled k r r'.
Proof. exact intervals_coloured. Qed.
Print Assumptions C88_coloured.

(** M2 plus noise with a gap, and the same data in other units on another datum (twice the values, plus 1 or plus
    (1, 5)): scalar and vector data, white and coloured noise *)
Example C88_example : forall wh tw : bool, exists L t u v u' v' lat opts (sm : list (R * C)) (c c' : coef), let be : C := if tw then (1, 5) else RtoC 1 in
  let sm' := map (fun x => (fst x, Cplus (Cplus (Cmult (RtoC 2) (snd x)) be) (Cmult (RtoC (fst x - c_reftime c)) (RtoC 0)))) sm in
  analysis L t u v lat opts sm c /\ analysis L t u' v' lat opts sm' c' /\ is2d v = tw /\ is2d v = is2d v' /\
  lstsq_minimises L /\ inv_exact L /\
  setting opts "method" (PStr "ols") /\ setting opts "infer" PNone /\ setting opts "conf_int" (PStr "linear") /\ setting opts "white" (PBool wh) /\
  o_equi (c_opt c) = true /\ lomb_quadratic L /\ (params c < length sm)%nat /\ identifiable c (map fst sm) /\ NoDup (c_name c) /\
  exists r, In r (rows c).
Proof.
  intros wh tw. cbv zeta.
  set (be := if tw then (1, 5) else RtoC 1).
  set (q := (if tw then ((1, 2), ((2, 1), (1, 0), (5, 6))) else (RtoC 1, ((1, 2), Cconj (1, 2), RtoC 3))) : q4).
  set (l := [q; scale_q 2 be q]).
  assert (RL : tw = false -> forall y, In y (dat q) -> snd y = 0).
  { intros T. unfold q. rewrite T. apply (data_real false (RtoC 1) (1, 2) (Cconj (1, 2)) (RtoC 3)); [|reflexivity]. intros _. cbn. auto. }
  assert (RL' : tw = false -> forall y, In y (dat (scale_q 2 be q)) -> snd y = 0).
  { intros T. unfold q, be. rewrite T. unfold scale_q. cbn [fst snd].
    apply (data_real false (Cmult (RtoC 2) (RtoC 1)) (Cmult (RtoC 2) (1, 2)) (Cmult (RtoC 2) (Cconj (1, 2))) (Cplus (Cmult (RtoC 2) (RtoC 3)) (RtoC 1))); [|reflexivity].
    intros _. split; [cbn; ring|]. split; [apply injective_projections; cbn; ring|cbn; ring]. }
  destruct (c_run l wh tw q (or_introl eq_refl) RL) as (c & AN & T & N1 & N2 & EQ & N3 & RT & NM & LI).
  destruct (c_run l wh tw (scale_q 2 be q) (or_intror (or_introl eq_refl)) RL') as (c' & AN' & _).
  exists (casesL l), five_t, (cu q), (cv tw q), (cu (scale_q 2 be q)), (cv tw (scale_q 2 be q)), (Some 45), (cw_opts wh), (csm q), c, c'.
  split; [exact AN|]. split; [exact (eq_ind _ (fun s => analysis (casesL l) five_t _ _ (Some 45) (cw_opts wh) s c') AN' _ (scale_sm 2 be q (fun x => x - c_reftime c)))|].
  split; [unfold cv; now destruct tw|]. split; [unfold cv; now destruct tw|].
  split; [apply cases_minimises|]. split; [apply cases_inv|].
  repeat (split; [first [left; cbn; tauto | right; split; [cbn; intros K; repeat (destruct K as [K|K]; [discriminate|]); exact K|cbn; tauto]]|]).
  split; [exact EQ|]. split; [apply cases_lomb|]. split; [unfold params; rewrite NM, N3; cbn; lia|].
  split; [exact (c_identifiable c N1 N2 N3 RT NM LI)|]. split; [rewrite NM; repeat constructor; cbn; tauto|].
  unfold rows. rewrite NM. eexists. left. reflexivity.
Qed.
