(** C102: times in binary64. *)
From Coq Require Import Reals ZArith Lra Lia List String.
From Flocq Require Import Core.
From Verif Require Import M_Base M_Time M_Float M_FloatTime S_Time S_Float S_FloatTime L_Time L_FloatTime L_FloatTime2 L_FloatTime3.
Import ListNotations.
Open Scope R_scope.

(** Every way to give the times is exact to 2^-30 days (81 microseconds) in the years 1 to 9999. *)
Theorem C102_accuracy : forall parse t e xs, denotes parse t e xs -> usual_epoch parse e ->
  exists ys, normalize64 parse t e = Ok ys /\ Forall2 (near (bpow radix2 (-30))) xs ys.
Proof. exact near_all. Qed.
Print Assumptions C102_accuracy.
(** Instants at least a millisecond apart keep their order, in whatever ways they were given. *)
Theorem C102_order : forall x y x' y', near (bpow radix2 (-30)) (Fin x) y -> near (bpow radix2 (-30)) (Fin x') y' ->
  0 <= x -> x + / 86400000 <= x' -> x' <= 4000000 -> exists s s', y = Fin s /\ y' = Fin s' /\ s < s'.
Proof. exact near_order. Qed.
Print Assumptions C102_order.
(** Dates at whole multiples of 1/1024 day (84.375 s; so every 45 minutes, 3, 6, 12 hours) are exact. *)
Theorem C102_exact : forall parse u l xs, denotes parse (TDate u l) PNone xs ->
  (forall n, In (Some n) l -> exists k, (n * 1024 = k * per_day u)%Z) ->
  (forall x, In (Fin x) xs -> 0 <= x <= 4000000) -> normalize64 parse (TDate u l) PNone = Ok xs.
Proof. exact exact_dates. Qed.
Print Assumptions C102_exact.
(** MATLAB day numbers are shifted exactly, from day 183 (2 July of the year 0) on. *)
Theorem C102_matlab : forall parse xs, (forall x, In x xs -> is64 x /\ 183 <= x <= 4000366) ->
  normalize64 parse (TNum (map Fin xs)) (PStr "matlab") = Ok (map (fun x => Fin (x - 366)) xs).
Proof. exact matlab_all. Qed.
Print Assumptions C102_matlab.

(** Evenly spaced dates from the year 110 on, at most 1024 days apart, in any unit, any number of them: solve's test for even spacing finds
    them evenly spaced, in whatever order the sums are formed. *)
Theorem C102_even : forall parse u n0 step k, (0 <= step <= 1024 * per_day u)%Z -> (2 <= k)%nat ->
  (forall i x, (i < k)%nat -> day_value u (n0 + Z.of_nat i * step) x -> 40000 <= x <= 4000000) ->
  exists ts, normalize64 parse (TDate u (map (fun i => Some (n0 + Z.of_nat i * step)%Z) (seq 0 k))) PNone = Ok (map Fin ts) /\
    (exists v, spacing64 ts v) /\ (forall v, spacing64 ts v -> v < eps64).
Proof. exact even_all. Qed.
Print Assumptions C102_even.
(** That the rounded times themselves are evenly spaced is false: 1970-01-01T00, T01, T02. *)
Theorem C102_equal_steps_refuted : forall parse, exists a b c,
  normalize64 parse (TDate UHour [Some 0%Z; Some 1%Z; Some 2%Z]) PNone = Ok [Fin a; Fin b; Fin c] /\
  exists p q, diff64 [a; b; c] = [p; q] /\ p <> q.
Proof. exact hourly_uneven. Qed.
Print Assumptions C102_equal_steps_refuted.

Example C102_example_accuracy : let parse s := if String.eqb s "1970-01-02" then Some 86400000%Z else None in
  denotes parse (TNum (map (fun x => xsub x (Fin 719164)) [Fin 736023; NaN])) (PStr "1970-01-02") [Fin 736023; NaN] /\ usual_epoch parse (PStr "1970-01-02").
Proof.
  intros parse. assert (V : day_value UMs 86400000 719164) by (apply day_value_ms; cbn [to_ms]; unfold ms_value; lra). split.
  - apply den_epoch. apply (ev_string parse _ 86400000%Z); try discriminate; [reflexivity|exact V].
  - intros off H. inversion H as [|s n x _ _ E D]; subst. injection E as <-. apply day_value_ms in D. subst off. cbn [to_ms]. unfold ms_value. lra.
Qed.
Example C102_example_even : forall i x, (i < 1000)%nat -> day_value UHour (400000 + Z.of_nat i * 1) x -> 40000 <= x <= 4000000.
Proof.
  intros i x Hi H. apply day_value_ms in H. subst x. unfold ms_value. cbn [to_ms].
  assert (B : (1440000000000 <= (400000 + Z.of_nat i * 1) * 3600000 <= 1443600000000)%Z) by lia. destruct B as [B1 B2]. apply IZR_le in B1, B2. lra.
Qed.
Example C102_example_exact : exists k, (400000 * 45 * 1024 = k * per_day UMin)%Z. Proof. exists 12800000%Z. reflexivity. Qed.
Example C102_example_matlab : is64 736390 /\ 183 <= 736390 <= 4000366.
Proof. split; [apply L_Float.is64_IZR; lia|lra]. Qed.
