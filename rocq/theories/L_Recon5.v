(** Time by time. *)
From Coq Require Import Lia Lra.
From Verif Require Import M_Base M_Lib M_Time M_Options M_Diag M_Solve M_Recon L_Base L_Select S_Order S_Recon L_Recon L_Recon3 L_Recon4.
Open Scope R_scope.

Lemma norm_num_app p a b e : normalize_time p (TNum (a ++ b)) e =
  do x <- normalize_time p (TNum a) e; do y <- normalize_time p (TNum b) e; Ok (x ++ y)%list.
Proof.
  unfold normalize_time. destruct (is_none e).
  - unfold python_gregorian_datenum, date2num. cbn [array_to_ms bind]. rewrite !map_app. reflexivity.
  - destruct (eq_str e "python"); [reflexivity|]. destruct (eq_str e "matlab"); [cbn [bind]; rewrite map_app; reflexivity|].
    destruct (epoch_array e); [|reflexivity]. cbn [bind]. destruct (python_gregorian_datenum p a0); [|reflexivity]. cbn [bind].
    rewrite map_app. reflexivity.
Qed.
Lemma norm_date_app p u a b e : normalize_time p (TDate u (a ++ b)) e =
  do x <- normalize_time p (TDate u a) e; do y <- normalize_time p (TDate u b) e; Ok (x ++ y)%list.
Proof.
  unfold normalize_time. destruct (is_none e); [|reflexivity].
  unfold python_gregorian_datenum, date2num. cbn [array_to_ms bind]. rewrite !map_app. reflexivity.
Qed.

(** what happened in a successful run *)
Lemma reconstruct_ok L t nd c e k mS mP o : well_formed c -> reconstruct L t nd c e k mS mP = Ok o ->
  (nd <= 1)%nat /\ exists tn, normalize_time (l_parse L) t e = Ok tn /\ ro_series o = outcome c k mS mP (map finite tn).
Proof.
  intros W. rewrite (reconstruct_eq _ _ _ _ _ _ _ _ W). destruct (Nat.ltb_spec 1 nd); [discriminate|].
  destruct (normalize_time (l_parse L) t e) as [tn|]; [|discriminate]. cbn [bind]. intros E. injection E as <-. split; [lia|].
  exists tn. split; reflexivity.
Qed.
Lemma out_u_outcome c k mS mP t : out_u (outcome c k mS mP t) = placed (value_u c k mS mP) t.
Proof. unfold outcome. destruct (o_twodim (c_opt c)); reflexivity. Qed.
Lemma out_v_outcome c k mS mP t : out_v (outcome c k mS mP t) =
  if o_twodim (c_opt c) then Some (placed (value_v c k mS mP) t) else None.
Proof. unfold outcome. destruct (o_twodim (c_opt c)); reflexivity. Qed.

Lemma outputs_outcome c k mS mP t a : In a (outputs (outcome c k mS mP t)) ->
  exists f, a = placed f t /\ (f = value_u c k mS mP \/ (o_twodim (c_opt c) = true /\ f = value_v c k mS mP)).
Proof. unfold outcome. destruct (o_twodim (c_opt c)); cbn [outputs In]; intros [<-|[<-|[]]] || intros [<-|[]]; eauto. Qed.

Lemma shape_lemma L t nd c e k mS mP o tn : well_formed c -> normalize_time (l_parse L) t e = Ok tn ->
  reconstruct L t nd c e k mS mP = Ok o -> forall a, In a (outputs (ro_series o)) ->
  length a = length tn /\ forall i, nth_error tn i = Some NaN \/ nth_error tn i = Some PInf \/ nth_error tn i = Some NInf -> nth_error a i = Some NaN.
Proof.
  intros W Hn H a Ha. destruct (reconstruct_ok _ _ _ _ _ _ _ _ _ W H) as (_ & tn' & Hn' & E). rewrite Hn in Hn'. apply Ok_inj in Hn'. subst tn'.
  rewrite E in Ha. apply outputs_outcome in Ha. destruct Ha as (f & -> & _). rewrite placed_len, map_length. split; [reflexivity|].
  intros i Hi. unfold placed. rewrite !nth_error_map. destruct Hi as [-> | [-> | ->]]; reflexivity.
Qed.
Lemma exact_lemma L t nd c e k mS mP o tn : well_formed c -> known_lind c -> corrections_finite c ->
  normalize_time (l_parse L) t e = Ok tn ->
  reconstruct L t nd c e k mS mP = Ok o -> forall a, In a (outputs (ro_series o)) ->
  forall i x y, nth_error tn i = Some x -> nth_error a i = Some y -> ((exists r, y = Fin r) <-> (exists r, x = Fin r)) /\ (y = NaN <-> ~ exists r, x = Fin r).
Proof.
  intros W K C Hn H a Ha. destruct (reconstruct_ok _ _ _ _ _ _ _ _ _ W H) as (_ & tn' & Hn' & E). rewrite Hn in Hn'. apply Ok_inj in Hn'. subst tn'.
  rewrite E in Ha. apply outputs_outcome in Ha. destruct Ha as (f & -> & Hf). intros i x y Hx. unfold placed. rewrite !nth_error_map, Hx. cbn [option_map].
  assert (F : forall z, is_fin (f z)).
  { intros z. destruct (values_finite c k mS mP z W K C) as [F1 F2]. destruct Hf as [->|[T ->]]; [exact F1|exact (F2 T)]. }
  intros Hy. injection Hy as <-. destruct x as [x| | |]; cbn [finite].
  - destruct (F x) as [r ->]. split; split; intros Hz; eauto; [discriminate|]. exfalso. apply Hz. eauto.
  - split; split; intros Hz; try (destruct Hz; discriminate); auto. intros [r Hr]. discriminate.
  - split; split; intros Hz; try (destruct Hz; discriminate); auto. intros [r Hr]. discriminate.
  - split; split; intros Hz; try (destruct Hz; discriminate); auto. intros [r Hr]. discriminate.
Qed.

Lemma pointwise_lemma L t t' nd nd' c e e' k mS mP o o' tn tn' i j : well_formed c ->
  normalize_time (l_parse L) t e = Ok tn -> normalize_time (l_parse L) t' e' = Ok tn' ->
  reconstruct L t nd c e k mS mP = Ok o -> reconstruct L t' nd' c e' k mS mP = Ok o' ->
  nth_error tn i = nth_error tn' j ->
  nth_error (out_u (ro_series o)) i = nth_error (out_u (ro_series o')) j /\
  match out_v (ro_series o), out_v (ro_series o') with
  | Some a, Some b => nth_error a i = nth_error b j | None, None => True | _, _ => False end.
Proof.
  intros W N1 N2 H1 H2 Hi. destruct (reconstruct_ok _ _ _ _ _ _ _ _ _ W H1) as (_ & a & A1 & ->). destruct (reconstruct_ok _ _ _ _ _ _ _ _ _ W H2) as (_ & b & B1 & ->).
  rewrite N1 in A1. rewrite N2 in B1. apply Ok_inj in A1, B1. subst a b. rewrite !out_u_outcome, !out_v_outcome. split.
  - unfold placed. rewrite !nth_error_map, Hi. reflexivity.
  - destruct (o_twodim (c_opt c)); [|exact I]. unfold placed. rewrite !nth_error_map, Hi. reflexivity.
Qed.

Lemma outcome_app c k mS mP t1 t2 : series_app (outcome c k mS mP t1) (outcome c k mS mP t2) = Some (outcome c k mS mP (t1 ++ t2)).
Proof. unfold outcome. destruct (o_twodim (c_opt c)); cbn [series_app]; rewrite !placed_app; reflexivity. Qed.

Lemma norm_cat p a b ab e : cat a b ab -> normalize_time p ab e =
  do x <- normalize_time p a e; do y <- normalize_time p b e; Ok (x ++ y)%list.
Proof. intros [(x & y & -> & -> & ->)|(u & x & y & -> & -> & ->)]; [apply norm_num_app|apply norm_date_app]. Qed.

Lemma concat_lemma L a b ab c e k mS mP oa ob : well_formed c -> cat a b ab ->
  reconstruct L a 1 c e k mS mP = Ok oa -> reconstruct L b 1 c e k mS mP = Ok ob ->
  exists o, reconstruct L ab 1 c e k mS mP = Ok o /\ series_app (ro_series oa) (ro_series ob) = Some (ro_series o).
Proof.
  intros W Hc H1 H2. destruct (reconstruct_ok _ _ _ _ _ _ _ _ _ W H1) as (_ & x & X1 & ->). destruct (reconstruct_ok _ _ _ _ _ _ _ _ _ W H2) as (_ & y & Y1 & ->).
  rewrite (reconstruct_eq _ _ _ _ _ _ _ _ W), (norm_cat _ _ _ _ _ Hc), X1, Y1. cbn [bind Nat.ltb Nat.leb]. eexists. split; [reflexivity|].
  cbn [ro_series]. rewrite map_app. apply outcome_app.
Qed.

(** additivity *)
Lemma placed_merge (f g h k : R -> xr) t : (forall x, f x = xminus (xadd (g x) (h x)) (k x)) ->
  placed f t = merge (fun a b z => xminus (xadd a b) z) (placed g t) (placed h t) (placed k t).
Proof.
  intros H. unfold placed, merge. induction t as [|[x|] t IH]; cbn; auto; rewrite IH; [|reflexivity]. rewrite H. reflexivity.
Qed.
Lemma additive_run L t nd c e A B s p oAB oA oB o0 : well_formed c -> (forall n, In n A -> In n B -> False) ->
  reconstruct L t nd c e (CSeq (A ++ B)) s p = Ok oAB -> reconstruct L t nd c e (CSeq A) s p = Ok oA ->
  reconstruct L t nd c e (CSeq B) s p = Ok oB -> reconstruct L t nd c e (CSeq []) s p = Ok o0 ->
  out_u (ro_series oAB) = merge (fun a b z => xminus (xadd a b) z) (out_u (ro_series oA)) (out_u (ro_series oB)) (out_u (ro_series o0)) /\
  match out_v (ro_series oAB), out_v (ro_series oA), out_v (ro_series oB), out_v (ro_series o0) with
  | Some w, Some a, Some b, Some z => w = merge (fun a b z => xminus (xadd a b) z) a b z
  | None, None, None, None => True | _, _, _, _ => False end.
Proof.
  intros W D H1 H2 H3 H4. destruct (reconstruct_ok _ _ _ _ _ _ _ _ _ W H1) as (_ & tn & N & ->).
  destruct (reconstruct_ok _ _ _ _ _ _ _ _ _ W H2) as (_ & t2 & N2 & ->). destruct (reconstruct_ok _ _ _ _ _ _ _ _ _ W H3) as (_ & t3 & N3 & ->).
  destruct (reconstruct_ok _ _ _ _ _ _ _ _ _ W H4) as (_ & t4 & N4 & ->).
  assert (t2 = tn) by (apply Ok_inj; congruence). assert (t3 = tn) by (apply Ok_inj; congruence). assert (t4 = tn) by (apply Ok_inj; congruence). subst t2 t3 t4.
  rewrite !out_u_outcome, !out_v_outcome. split.
  - apply placed_merge. intros x. exact (proj1 (additive c A B s p x D)).
  - destruct (o_twodim (c_opt c)); [|exact I]. apply placed_merge. intros x. exact (proj2 (additive c A B s p x D)).
Qed.
(** without any constituent only the mean and the trend remain *)
Lemma empty_selection c s p x : value_u c (CSeq []) s p x =
  plus (Some 0) (if o_twodim (c_opt c) then background c (c_umean c) (c_uslope c) x else background c (c_mean c) (c_slope c) x).
Proof.
  unfold value_u. rewrite (filter_ext (chosen c (CSeq []) s p) (fun _ => false)) by (intros; apply chosen_nil). rewrite filter_false. reflexivity.
Qed.
Lemma empty_selection_v c s p x : value_v c (CSeq []) s p x = plus (Some 0) (background c (c_vmean c) (c_vslope c) x).
Proof.
  unfold value_v. rewrite (filter_ext (chosen c (CSeq []) s p) (fun _ => false)) by (intros; apply chosen_nil). rewrite filter_false. reflexivity.
Qed.

Lemma chosen_rule c mS mP r : In r (rows c) ->
  (chosen c CNone mS mP r = true <->
   o_nodiagn (c_opt c) = true \/ (mS = 0 /\ mP = 0) \/
   (xge (snr r) (Fin mS) = true /\ xge (share (energy r) (total c)) (Fin mP) = true)).
Proof.
  intros Hr. destruct (w_name_some c r Hr) as [n Hn]. unfold chosen. rewrite Hn. destruct (o_nodiagn (c_opt c)); [tauto|].
  destruct (Req_EM_T mS 0), (Req_EM_T mP 0); rewrite ?andb_true_iff; intuition congruence.
Qed.
Lemma dims_refused L t nd c e k mS mP : (1 < nd)%nat -> reconstruct L t nd c e k mS mP = Err ValueError.
Proof. intros H. unfold reconstruct. destruct (Nat.ltb_spec 1 nd); [reflexivity|lia]. Qed.
