(** The normalised Lomb-Scargle power does not depend on the phase that makes cosine and sine orthogonal, so that a
    library routine meeting [lomb_contract] exists. *)
From Coq Require Import Lia Lra.
From Verif Require Import M_Base M_Lib S_Period L_Base.
Open Scope R_scope.

Section Power.
Variables (t x : list R) (w tau : R).
Let c := cos tau.
Let s := sin tau.
Let CC := at_times t (fun y => cos (w * y) ^ 2).
Let CS := at_times t (fun y => cos (w * y) * sin (w * y)).
Let SS := at_times t (fun y => sin (w * y) ^ 2).
Let a := with_data t x (fun y => cos (w * y)).
Let b := with_data t x (fun y => sin (w * y)).

Lemma sum_lin (f g h k : R -> R) p q r : (forall y, f y = p * g y + q * h y + r * k y) ->
  at_times t f = p * at_times t g + q * at_times t h + r * at_times t k.
Proof. intros H. unfold at_times, rsum. induction t as [|y l IH]; cbn [map fold_right]; [ring|]. rewrite IH, H. ring. Qed.
Lemma data_lin (f g h : R -> R) p q : (forall y, f y = p * g y + q * h y) -> with_data t x f = p * with_data t x g + q * with_data t x h.
Proof. intros H. unfold with_data, rsum. induction (combine t x) as [|y l IH]; cbn [map fold_right]; [ring|]. rewrite IH, H. ring. Qed.

Lemma cos_tau y : cos (w * y - tau) = cos (w * y) * c + sin (w * y) * s.
Proof. apply cos_minus. Qed.
Lemma sin_tau y : sin (w * y - tau) = sin (w * y) * c - cos (w * y) * s.
Proof. apply sin_minus. Qed.
Lemma sum_cos : at_times t (fun y => cos (w * y - tau) ^ 2) = c ^ 2 * CC + 2 * c * s * CS + s ^ 2 * SS.
Proof. apply (sum_lin _ _ _ _ (c ^ 2) (2 * c * s) (s ^ 2)). intros y. rewrite cos_tau. ring. Qed.
Lemma sum_sin : at_times t (fun y => sin (w * y - tau) ^ 2) = s ^ 2 * CC + - (2 * c * s) * CS + c ^ 2 * SS.
Proof. apply (sum_lin _ _ _ _ (s ^ 2) (- (2 * c * s)) (c ^ 2)). intros y. rewrite sin_tau. ring. Qed.
Lemma sum_both : at_times t (fun y => sin (2 * (w * y - tau))) = - (2 * c * s) * CC + 2 * (c ^ 2 - s ^ 2) * CS + 2 * c * s * SS.
Proof. apply (sum_lin _ _ _ _ (- (2 * c * s)) (2 * (c ^ 2 - s ^ 2)) (2 * c * s)). intros y. rewrite sin_2a, cos_tau, sin_tau. ring. Qed.
Lemma data_cos : with_data t x (fun y => cos (w * y - tau)) = c * a + s * b.
Proof. apply data_lin. intros y. rewrite cos_tau. ring. Qed.
Lemma data_sin : with_data t x (fun y => sin (w * y - tau)) = - s * a + c * b.
Proof. apply data_lin. intros y. rewrite sin_tau. ring. Qed.

Lemma power_phase : resolved t w -> orthogonal_phase t w tau ->
  lomb_power t x x w tau = (a ^ 2 * SS - 2 * a * b * CS + b ^ 2 * CC) / (CC * SS - CS ^ 2) / 2.
Proof.
  intros RS OR. destruct (RS tau OR) as [N1 N2]. unfold orthogonal_phase in OR. unfold lomb_power.
  rewrite sum_cos in *. rewrite sum_sin in *. rewrite sum_both in OR. rewrite data_cos, data_sin.
  assert (U : c ^ 2 + s ^ 2 = 1) by (unfold c, s; assert (H := sin2_cos2 tau); unfold Rsqr in H; lra).
  clearbody c s CC CS SS a b.
  assert (OR2 : (c ^ 2 - s ^ 2) * CS + c * s * (SS - CC) = 0) by lra.
  set (A := c ^ 2 * CC + 2 * c * s * CS + s ^ 2 * SS) in *. set (B := s ^ 2 * CC + - (2 * c * s) * CS + c ^ 2 * SS) in *.
  assert (D : A * B = CC * SS - CS ^ 2).
  { transitivity ((c ^ 2 + s ^ 2) ^ 2 * (CC * SS - CS ^ 2) + ((c ^ 2 - s ^ 2) * CS + c * s * (SS - CC)) ^ 2); [unfold A, B; ring|]. rewrite U, OR2. ring. }
  assert (N : (c * a + s * b) ^ 2 * B + (- s * a + c * b) ^ 2 * A = a ^ 2 * SS - 2 * a * b * CS + b ^ 2 * CC).
  { transitivity ((c ^ 2 + s ^ 2) ^ 2 * (a ^ 2 * SS - 2 * a * b * CS + b ^ 2 * CC) +
      2 * (c * a + s * b) * (- s * a + c * b) * ((c ^ 2 - s ^ 2) * CS + c * s * (SS - CC))); [unfold A, B; ring|]. rewrite U, OR2. ring. }
  rewrite <- D, <- N. field. auto.
Qed.
End Power.

(** the power as a formula *)
Definition power_at (t x : list R) (w : R) : R :=
  let CC := at_times t (fun y => cos (w * y) ^ 2) in let CS := at_times t (fun y => cos (w * y) * sin (w * y)) in
  let SS := at_times t (fun y => sin (w * y) ^ 2) in
  let a := with_data t x (fun y => cos (w * y)) in let b := with_data t x (fun y => sin (w * y)) in
  (a ^ 2 * SS - 2 * a * b * CS + b ^ 2 * CC) / (CC * SS - CS ^ 2) / 2.
Lemma power_contract L : (forall t x fr, l_lomb L t x fr = map (power_at t x) fr) -> lomb_contract L.
Proof.
  intros H t x fr _. rewrite H. induction fr as [|w fr IH]; constructor; auto. intros tau RS OR. symmetry. now apply power_phase.
Qed.
