(** Property C101: models of which one contains the other. *)
From Coq Require Import List String Reals Lia Lra Permutation.
From Coquelicot Require Import Coquelicot.
From Verif Require Import M_Base M_Lib M_Options M_Time M_Slvinit M_Select M_Ellipse M_Robust M_Period M_Conf M_Diag M_Solve M_Recon
  S_Dict S_Options S_Slv S_Order S_Fit S_Recon S_Model S_Choice S_Nested S_Output
  L_SolveInv L_Example L_Example3 L_Example4 L_Example5 L_Output L_Nested L_Robust3 L_Robust5 L_Example21 L_Example22 L_Example24.
Import ListNotations.
Open Scope R_scope.
Open Scope string_scope.

(** C101.  Adding constituents or the trend never makes an ordinary least squares fit worse: what reconstruct returns for the
    result with the wider model is at least as near to the samples as what it returns for the result with the narrower one,
    whatever the method of the latter ... *)
Theorem C101_never_worse : forall L t u v lat opts sm c L' t' u' v' lat' opts' sm' c',
  analysis L t u v lat opts sm c -> analysis L' t' u' v' lat' opts' sm' c' -> wider c c' -> NoDup (c_name c) -> Permutation sm sm' ->
  lstsq_minimises L' -> o_method (c_opt c') = PStr "ols" ->
  forall L1, exists zs zs', returns L1 c (map fst sm) zs /\ returns L1 c' (map fst sm) zs' /\ distance2 sm zs' <= distance2 sm zs.
Proof. exact never_worse. Qed.
Print Assumptions C101_never_worse.

(** ... and if the narrower model explains the samples, the wider one finds it: the same constituents, mean and trend, and
    nothing in the constituents (and the trend) that were added ... *)
Theorem C101_nothing_invented : forall L t u v lat opts sm c L' t' u' v' lat' opts' sm' c',
  analysis L t u v lat opts sm c -> analysis L' t' u' v' lat' opts' sm' c' -> wider c c' -> NoDup (c_name c) -> Permutation sm sm' ->
  lstsq_minimises L' -> o_method (c_opt c') = PStr "ols" -> identifiable c' (map fst sm') -> NoDup (c_name c') ->
  (exists L1, returns L1 c (map fst sm) (map snd sm)) -> nothing_more c c'.
Proof. exact absent. Qed.
Print Assumptions C101_nothing_invented.

(** ... and the energy of the data is the energy of what reconstruct returns plus the energy of the residuals. *)
Theorem C101_energy : forall L t u v lat opts sm c, analysis L t u v lat opts sm c -> approximate (c_opt c) = false -> NoDup (c_name c) ->
  lstsq_minimises L -> o_method (c_opt c) = PStr "ols" ->
  forall L1, exists zs, returns L1 c (map fst sm) zs /\ norm2 (map snd sm) = norm2 zs + distance2 sm zs.
Proof. exact pythagoras. Qed.
Print Assumptions C101_energy.

(** (calls with equal corrections, latitude, number of components and reference time, the second with all constituents of the
    first, and with the trend if the first has it) *)
Theorem C101_wider : forall L t u v lat opts sm c L' t' u' v' opts' sm' c',
  analysis L t u v lat opts sm c -> analysis L' t' u' v' lat opts' sm' c' ->
  agree opts opts' ["nodal"; "phase"] -> setting opts "infer" PNone -> setting opts' "infer" PNone ->
  (forall x x', setting opts "trend" x -> setting opts' "trend" x' -> falsy x' -> falsy x) ->
  is2d v' = is2d v -> c_reftime c' = c_reftime c -> incl (c_name c) (c_name c') -> wider c c'.
Proof. exact agree_wider. Qed.
Print Assumptions C101_wider.

(** an M2 tide about 3 at four times: the mean alone, and M2 with the mean *)
Example C101_never_worse_example : exists L' c c', analysis colL ex_t (m2_u (1, 2) 3) None (Some 45) ols_opts (m2_sm (1, 2) 3) c /\
  analysis L' ex_t (m2_u (1, 2) 3) None (Some 45) off_opts (m2_sm (1, 2) 3) c' /\ wider c c' /\ NoDup (c_name c) /\
  c_name c = [] /\ c_name c' = ["M2"] /\
  lstsq_minimises L' /\ o_method (c_opt c') = PStr "ols" /\ approximate (c_opt c') = false /\ NoDup (c_name c').
Proof.
  destruct (mean_m2 (1, 2) 3) as (c & A). destruct (m2_run [mm (1, 2) 3] (1, 2) 3 ltac:(now left) ltac:(intros m [<-|[]]; reflexivity)) as (c' & Mf).
  destruct (m2_wider _ _ _ _ _ _ A Mf) as (W & N & N'). exists (tryL [mm (1, 2) 3]), c, c'. split; [apply A|]. split; [apply Mf|]. split; [exact W|]. split; [exact N|].
  split; [apply A|]. split; [apply Mf|]. split; [apply try_minimises|]. split; [apply Mf|]. split; [apply approximate_none, Mf|exact N'].
Qed.
(** 3 at four times *)
Example C101_nothing_invented_example : exists L' u sm c c', analysis colL ex_t u None (Some 45) ols_opts sm c /\
  analysis L' ex_t u None (Some 45) off_opts sm c' /\ wider c c' /\ NoDup (c_name c) /\ lstsq_minimises L' /\ o_method (c_opt c') = PStr "ols" /\
  identifiable c' (map fst sm) /\ NoDup (c_name c') /\ returns colL c (map fst sm) (map snd sm) /\ c_mean c = Some 3.
Proof.
  destruct (mean_m2 (RtoC 0) 3) as (c & A). destruct (m2_run [mm (RtoC 0) 3] (RtoC 0) 3 ltac:(now left) ltac:(intros m [<-|[]]; reflexivity)) as (c' & Mf).
  assert (E : middle (RtoC 0) 3 = 3) by (unfold middle; rewrite !still; cbn; field). rewrite E in A.
  destruct (m2_wider _ _ _ _ _ _ A Mf) as (W & N & N'). exists (tryL [mm (RtoC 0) 3]), (m2_u (RtoC 0) 3), (m2_sm (RtoC 0) 3), c, c'. split; [apply A|]. split; [apply Mf|]. split; [exact W|]. split; [exact N|].
  split; [apply try_minimises|]. split; [apply Mf|]. split; [rewrite m2_ext; exact (m2_identifiable _ _ _ _ Mf)|]. split; [exact N'|]. split; [now apply (still_returns 3 c 3)|apply A].
Qed.
