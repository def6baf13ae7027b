(** Sample clean-up (utide/_solve.py:465-528). *)
From Coq Require Import Lia Lra.
From Verif Require Import M_Base M_Time M_Slvinit S_Slv L_Base.
Open Scope R_scope.

Lemma compress_goodmask_id {A B} (l : list (option A)) (l' : list B) : is_masked l = false ->
  length l' = length l -> compress (goodmask l) l' = l'.
Proof.
  revert l'. induction l as [|[x|] l IH]; intros [|y l']; cbn; intros H Hl; try discriminate; auto.
  f_equal. apply IH; auto.
Qed.

Lemma somes_all {A} (l : list (option A)) : is_masked l = false -> map Some (somes l) = l.
Proof. induction l as [|[x|] l IH]; cbn; intros H; try discriminate; auto. f_equal; auto. Qed.

Lemma compress_map {A B} (f : A -> B) m l : compress m (map f l) = map f (compress m l).
Proof. revert l. induction m as [|[|] m IH]; intros [|x l]; cbn; auto. f_equal; auto. Qed.

Lemma length_compress_good {A B} (l : list (option A)) (l' : list B) : length l' = length l ->
  length (compress (goodmask l) l') = length (somes l).
Proof.
  revert l'. induction l as [|[x|] l IH]; intros [|y l']; cbn; intros H; try discriminate; auto.
Qed.

(** scalar case of clean, always in the compressing form *)
Lemma clean_scalar tin uin : length uin = length tin ->
  clean tin uin None =
  let u1 := compress (goodmask tin) uin in
  (somes tin, compress (goodmask u1) (somes tin), filled (compress (goodmask u1) u1), None).
Proof.
  intros Hl. unfold clean. cbn [option_map].
  assert (Hu : (if is_masked tin then compress (goodmask tin) uin else uin) = compress (goodmask tin) uin).
  { destruct (is_masked tin) eqn:E; auto. now rewrite compress_goodmask_id. }
  rewrite Hu. cbv zeta. set (u1 := compress (goodmask tin) uin) in *. clear Hu.
  assert (Hlu : length (somes tin) = length u1) by (unfold u1; now rewrite length_compress_good).
  assert (N : (if is_masked tin then (None : option (list (option R))) else None) = None) by now destruct (is_masked tin).
  rewrite N. cbn [option_map].
  destruct (is_masked u1) eqn:E; cbn [orb]; auto.
  rewrite !compress_goodmask_id; auto.
Qed.

Definition both (v u : list (option R)) : list bool :=
  map (fun p => andb (fst p) (snd p)) (combine (goodmask v) (goodmask u)).

Lemma compress_both_id {B} v u (l' : list B) : is_masked u = false -> is_masked v = false ->
  length u = length v -> length l' = length u -> compress (both v u) l' = l'.
Proof.
  unfold both. revert u l'. induction v as [|[x|] v IH]; intros [|[y|] u] [|z l']; cbn; intros Hu Hv H1 H2;
    try discriminate; auto. f_equal. apply IH; auto.
Qed.

Lemma clean_vector tin uin vin : length uin = length tin -> length vin = length tin ->
  clean tin uin (Some vin) =
  let u1 := compress (goodmask tin) uin in let v1 := compress (goodmask tin) vin in
  (somes tin, compress (both v1 u1) (somes tin), filled (compress (both v1 u1) u1),
   Some (filled (compress (both v1 u1) v1))).
Proof.
  intros Hl Hl'. unfold clean. cbn [option_map].
  assert (Hu : (if is_masked tin then compress (goodmask tin) uin else uin) = compress (goodmask tin) uin).
  { destruct (is_masked tin) eqn:E; auto. now rewrite compress_goodmask_id. }
  assert (Hv : (if is_masked tin then Some (compress (goodmask tin) vin) else Some vin) = Some (compress (goodmask tin) vin)).
  { destruct (is_masked tin) eqn:E; auto. now rewrite compress_goodmask_id. }
  rewrite Hu, Hv. cbv zeta. set (u1 := compress (goodmask tin) uin) in *. set (v1 := compress (goodmask tin) vin) in *.
  clear Hu Hv.
  assert (Hlu : length u1 = length (somes tin)) by (unfold u1; now rewrite length_compress_good).
  assert (Hlv : length v1 = length (somes tin)) by (unfold v1; now rewrite length_compress_good).
  cbn [option_map].
  destruct (is_masked u1 || is_masked v1) eqn:E; auto.
  apply orb_false_iff in E. destruct E as [E1 E2].
  rewrite !(compress_both_id v1 u1) by (auto; congruence). reflexivity.
Qed.

(** one pass over the samples *)
Fixpoint onepass1 (t u : list (option R)) : list (R * R) :=
  match t, u with
  | a :: t, b :: u => match a, b with Some x, Some y => (x, y) :: onepass1 t u | _, _ => onepass1 t u end
  | _, _ => []
  end.
Fixpoint onepass2 (t u v : list (option R)) : list (R * R * R) :=
  match t, u, v with
  | a :: t, b :: u, c :: v =>
      match a, b, c with Some x, Some y, Some z => (x, y, z) :: onepass2 t u v | _, _, _ => onepass2 t u v end
  | _, _, _ => []
  end.

Lemma clean_scalar_spec tin uin : length uin = length tin ->
  clean tin uin None = (somes tin, map fst (onepass1 tin uin), map snd (onepass1 tin uin), None).
Proof.
  intros Hl. rewrite clean_scalar by auto. cbv zeta.
  assert (E : compress (goodmask (compress (goodmask tin) uin)) (somes tin) = map fst (onepass1 tin uin) /\
     filled (compress (goodmask (compress (goodmask tin) uin)) (compress (goodmask tin) uin)) = map snd (onepass1 tin uin)).
  { revert uin Hl. induction tin as [|[x|] tin IH]; intros [|[y|] uin]; cbn -[pow]; intros Hl; try discriminate; auto.
    all: destruct (IH uin ltac:(lia)) as [E1 E2]; cbn -[pow]; unfold goodmask, filled in *; rewrite ?E1, ?E2; auto. }
  destruct E as [-> ->]. reflexivity.
Qed.

Lemma clean_vector_spec tin uin vin : length uin = length tin -> length vin = length tin ->
  clean tin uin (Some vin) =
  (somes tin, map (fun p => fst (fst p)) (onepass2 tin uin vin), map (fun p => snd (fst p)) (onepass2 tin uin vin),
   Some (map snd (onepass2 tin uin vin))).
Proof.
  intros Hl Hl'. rewrite clean_vector by auto. cbv zeta.
  set (u1 := compress (goodmask tin) uin). set (v1 := compress (goodmask tin) vin).
  assert (E : compress (both v1 u1) (somes tin) = map (fun p => fst (fst p)) (onepass2 tin uin vin) /\
     filled (compress (both v1 u1) u1) = map (fun p => snd (fst p)) (onepass2 tin uin vin) /\
     filled (compress (both v1 u1) v1) = map snd (onepass2 tin uin vin)).
  { unfold u1, v1, both. clear u1 v1. revert uin vin Hl Hl'.
    induction tin as [|[x|] tin IH]; intros [|[y|] uin] [|[z|] vin]; cbn -[pow]; intros Hl Hl'; try discriminate; auto;
    destruct (IH uin vin ltac:(lia) ltac:(lia)) as (E1 & E2 & E3); cbn -[pow]; unfold goodmask, filled in *; rewrite ?E1, ?E2, ?E3; auto. }
  destruct E as (-> & -> & ->). reflexivity.
Qed.

Lemma masked_invalid_nil d : masked_invalid d [] = map finite d.
Proof. induction d; cbn; auto. now f_equal. Qed.

Lemma masked_invalid_full d m : m = [] \/ length m = length d ->
  masked_invalid d m = map (fun p : xr * bool => if snd p then None else finite (fst p)) (combine d (full_mask (length d) m)).
Proof.
  intros [->|H].
  - cbn. rewrite masked_invalid_nil. induction d; cbn; auto. now f_equal.
  - assert (E : full_mask (length d) m = m) by (destruct m; destruct d; auto; discriminate).
    rewrite E. clear E. revert m H. induction d as [|x d IH]; intros [|b m] H; cbn; try discriminate; auto.
    f_equal. apply IH. auto.
Qed.

Lemma length_full_mask n m : m = [] \/ length m = n -> length (full_mask n m) = n.
Proof. intros [->|H]; cbn; [apply repeat_length|]. destruct m; auto. rewrite <- H. apply repeat_length. Qed.

Lemma length_masked_invalid d m : length (masked_invalid d m) = length d.
Proof. revert m. induction d; intros m; cbn; auto. Qed.

Lemma somes_valid ts : somes (masked_invalid ts []) = valid_times ts.
Proof. rewrite masked_invalid_nil. unfold valid_times. induction ts as [|[r| | |] ts IH]; cbn; auto. now f_equal. Qed.

Lemma onepass1_valid ts us um : length us = length ts -> um = [] \/ length um = length us ->
  onepass1 (masked_invalid ts []) (masked_invalid us um) = valid_scalar ts us um.
Proof.
  intros Hl Hm. rewrite (masked_invalid_full us um Hm), masked_invalid_nil. unfold valid_scalar.
  assert (Hf := length_full_mask _ _ Hm). set (m := full_mask (length us) um) in *. clearbody m. clear Hm um.
  revert us m Hl Hf. induction ts as [|t ts IH]; intros [|u us] [|b m]; cbn; intros Hl Hf; try discriminate; auto.
  destruct t, u, b; cbn; rewrite ?IH by lia; auto.
Qed.

Lemma onepass2_valid ts us um vs vm : length us = length ts -> length vs = length ts ->
  um = [] \/ length um = length us -> vm = [] \/ length vm = length vs ->
  onepass2 (masked_invalid ts []) (masked_invalid us um) (masked_invalid vs vm) = valid_vector ts us um vs vm.
Proof.
  intros Hl Hl' Hm Hm'. rewrite (masked_invalid_full us um Hm), (masked_invalid_full vs vm Hm'), masked_invalid_nil.
  unfold valid_vector.
  assert (Hf := length_full_mask _ _ Hm). set (m := full_mask (length us) um) in *. clearbody m. clear Hm um.
  assert (Hf' := length_full_mask _ _ Hm'). set (m' := full_mask (length vs) vm) in *. clearbody m'. clear Hm' vm.
  revert us m vs m' Hl Hf Hl' Hf'.
  induction ts as [|t ts IH]; intros [|u us] [|b m] [|v vs] [|b' m']; cbn; intros Hl Hf Hl' Hf'; try discriminate; auto.
  destruct t, u, b, v, b'; cbn; rewrite ?IH by lia; auto.
Qed.

(** ** the result of slv_core *)
Lemma slv_core_fields tin uin vin si T t u v : clean tin uin vin = (T, t, u, v) ->
  slv_core tin uin vin = Ok si ->
  si_tin si = T /\ si_t si = t /\ si_u si = u /\ si_v si = v /\ si_equi si = equi_of T /\
  let base := if equi_of T then T else t in
  ptp base = Ok (si_lor si) /\ si_tref si = midpoint base /\ si_elor si = elor_of (si_lor si) (length base).
Proof.
  intros Hc. unfold slv_core. rewrite Hc. destruct (equi_of T) eqn:E; intros H; inv_bind H;
    injection H as <-; cbn; rewrite ?E; auto 10.
Qed.

Lemma slvinit_shapes parse (t : pyarr tarray) u v lat epoch si : slvinit parse t u v lat epoch = Ok si ->
  exists n dt mt du mu, t = NdArr [n] dt mt /\ u = NdArr [n] du mu /\
    (v = None \/ exists dv mv, v = Some (NdArr [n] dv mv)).
Proof.
  unfold slvinit. intros H. inv_bind H. clear H. unfold check_args in Ha. destruct lat; [|discriminate].
  inv_bind Ha. inv_bind Ha. destruct t as [|st dt mt]; [discriminate|]. destruct u as [|su du mu]; [discriminate|].
  cbn in *. injection Ha0 as <-. injection Ha1 as <-.
  unfold shape_eqb in Ha. destruct (list_eq_dec Nat.eq_dec st su) as [->|]; [|discriminate].
  cbn in Ha. destruct su as [|n [|? ?]]; try discriminate. cbn in Ha.
  exists n, dt, mt, du, mu. split; auto. split; auto.
  destruct v as [[|sv dv mv]|]; [discriminate| |auto]. cbn in Ha.
  destruct (list_eq_dec Nat.eq_dec sv [n]) as [->|]; [|discriminate]. eauto.
Qed.
