(** reconstruct in memory: the arrays it returns. *)
From Coq Require Import QArith Qreals Lia Lra.
From Verif Require Import M_Base M_Lib M_Tables M_Const M_Time M_Options M_Slvinit M_Harmonics M_Select M_Ellipse M_Robust M_Period M_Conf M_Diag M_Solve M_Recon M_Memory
  S_Memory L_Slv L_Memory L_Memory2.
Open Scope R_scope.
Open Scope string_scope.

Lemma then_ok {A B} (p : act A) (f : A -> act B) m x m' : p m = (Ok x, m') -> andthen p f m = f x m'.
Proof. unfold andthen. now intros ->. Qed.
Lemma then_err {A B} (p : act A) (f : A -> act B) m e m' : p m = (Err e, m') -> andthen p f m = (Err e, m').
Proof. unfold andthen. now intros ->. Qed.

Lemma merge_scatter good vals : merge good vals (map (fun _ => NaN) good) = scatter good vals.
Proof. revert vals. induction good as [|[|] g IH]; intros vals; cbn; auto; f_equal; apply IH. Qed.
Lemma compress_scatter good vals : length vals = length (compress good good) -> compress good (scatter good vals) = vals.
Proof. revert vals. induction good as [|[|] g IH]; intros [|x vals]; cbn; intros H; try discriminate; auto; solve [apply (IH []); exact H | apply (IH (x :: vals)); exact H | f_equal; apply IH; now injection H]. Qed.
Lemma merge_add good vals d : length vals = length (compress good good) -> length d = length vals ->
  merge good (map2 xadd vals d) (scatter good vals) = scatter good (map2 xadd vals d).
Proof.
  revert vals d. induction good as [|[|] g IH]; intros [|x vals] [|y d] H K; cbn in *; try discriminate; auto; f_equal; try (apply (IH [] [])); try apply IH; auto; try lia.
  apply (IH (x :: vals) (y :: d)); cbn; lia.
Qed.
Lemma compress_len {A B} good (a : list A) (b : list B) : length a = length b -> length (compress good a) = length (compress good b).
Proof. revert a b. induction good as [|[|] g IH]; intros [|x a] [|y b] H; cbn in *; try discriminate; auto. Qed.

(** an array written at the good places *)
Record wrote (a : arr) (m m' : mem) (l : list xr) : Prop := {
  wr_free : free m' = free m;
  wr_other : forall i, ~ In i a -> cell m' i = cell m i;
  wr_look : look m' a = l }.
Lemma wrote_other a m m' l b : wrote a m m' l -> apart b a -> look m' b = look m b.
Proof. intros W H. apply map_ext_in. intros i Hi. apply (wr_other _ _ _ _ W). now apply H. Qed.
Lemma put_spec a good l m : NoDup a -> length a = length good -> look m a = map (fun _ => NaN) good -> length l = length (compress good good) ->
  exists m', put_good a good l m = (Ok tt, m') /\ wrote a m m' (scatter good l).
Proof.
  intros ND La H Hl. eexists. split; [reflexivity|]. constructor; [apply store_free| |].
  - intros i Hi. apply store_other. intros K. apply Hi. eapply compress_in, K.
  - rewrite look_merge by (auto; rewrite Hl; now apply compress_len). now rewrite H, merge_scatter.
Qed.
Lemma add_spec a good vals d m : NoDup a -> length a = length good -> look m a = scatter good vals -> length vals = length (compress good good) -> length d = length vals ->
  exists m', add_good a good d m = (Ok tt, m') /\ wrote a m m' (scatter good (map2 xadd vals d)).
Proof.
  intros ND La H Hl Hd. eexists. split; [reflexivity|]. rewrite look_compress, H, compress_scatter by auto. constructor; [apply store_free| |].
  - intros i Hi. apply store_other. intros K. apply Hi. eapply compress_in, K.
  - rewrite look_merge; [|exact ND|]. { rewrite H. now apply merge_add. }
    unfold map2. rewrite map_length, combine_length, Hd, Nat.min_id, Hl. now apply compress_len.
Qed.

(** the numbers *)
Lemma flat_value (p : C -> R) mn (fit : list (option C)) (t : list R) : length fit = length t ->
  map (fun z => xpart (fun f => p f + mn) z) fit = map2 (fun f x => xo (option_map (fun z => p z + mn + 0) f)) fit t.
Proof.
  revert t. induction fit as [|z fit IH]; intros [|x t] H; try discriminate; auto. unfold map2 in *. cbn [map combine fst snd]. f_equal; [|apply IH; now injection H].
  destruct z; cbn; auto. now rewrite Rplus_0_r.
Qed.
Lemma trend_value (p : C -> R) mn sl ref (fit : list (option C)) (t : list R) : length fit = length t ->
  map2 xadd (map (fun z => xpart (fun f => p f + mn) z) fit) (map (fun x => Fin (sl * (x - ref))) t) =
  map2 (fun f x => xo (option_map (fun z => p z + mn + sl * (x - ref)) f)) fit t.
Proof.
  revert t. induction fit as [|z fit IH]; intros [|x t] H; try discriminate; auto. unfold map2 in *. cbn [map combine fst snd]. f_equal; [|apply IH; now injection H].
  destruct z; reflexivity.
Qed.

Definition show (m : mem) (s : series_ref) : series := match s with RScalar h => Scalar (look m h) | RVector u v => Vector (look m u) (look m v) end.
Definition refs (s : series_ref) : list arr := match s with RScalar h => [h] | RVector u v => [u; v] end.

Lemma made_later m0 m m' a : later m0 m -> made_between m m' a -> made_between m0 m' a.
Proof. intros [H _] [N F]. split; [exact N|]. eapply Forall_impl; [|exact F]. cbn. intros; lia. Qed.
Lemma made_upto m0 m m' a : made_between m0 m a -> (free m <= free m')%nat -> made_between m0 m' a.
Proof. intros [N F] H. split; [exact N|]. eapply Forall_impl; [|exact F]. cbn. intros; lia. Qed.
Lemma made_apart m0 m m' a b : made_between m0 m a -> made_between m m' b -> apart a b.
Proof. intros [_ F] [_ G] i Hi K. rewrite Forall_forall in F, G. apply F in Hi. apply G in K. lia. Qed.
Lemma apart_sym a b : apart a b -> apart b a.
Proof. intros H i Hi K. now apply (H i). Qed.

Lemma core_spec tm c constit x y m : table_intact m ->
  match reconstruct_core (somes tm) (goodmask tm) c constit x y with
  | Ok s => exists r m', reconstruct_core_mem (somes tm) (goodmask tm) c constit x y m = (Ok r, m') /\ show m' r = s /\
      Forall (made_between m m') (refs r) /\ (forall a b, refs r = [a; b] -> apart a b)
  | Err e => exists m', reconstruct_core_mem (somes tm) (goodmask tm) c constit x y m = (Err e, m')
  end.
Proof.
  intros T. unfold reconstruct_core_mem, reconstruct_core. destruct (rec_select c constit x y) as [mask|e]; [|now exists m]. rewrite (then_ok _ _ m mask m eq_refl). cbn [bind].
  destruct (rec_pm c mask) as [pm|e]; [|now exists m]. rewrite (then_ok _ _ m pm m eq_refl). cbn [bind].
  set (good := goodmask tm). set (t := somes tm).
  destruct (ut_E_mem_spec t (c_reftime c) (compress mask (c_frq c)) (compress mask (c_lind c)) (c_lat c) (flags_of (c_opt c)) m T) as (m1 & E1 & L1).
  rewrite (then_ok _ _ _ _ _ E1). cbv zeta. assert (LE := ut_E_len t (c_reftime c) (compress mask (c_frq c)) (compress mask (c_lind c)) (c_lat c) (flags_of (c_opt c))).
  generalize dependent (ut_E t (c_reftime c) (compress mask (c_frq c)) (compress mask (c_lind c)) (c_lat c) (flags_of (c_opt c))). intros E _ LE.
  set (fit := map (fun row => fit_row row pm) E). assert (LF : length fit = length t) by (unfold fit; now rewrite map_length).
  assert (LG : length t = length (compress good good)) by (unfold t, good; rewrite length_compress_good; [reflexivity|unfold goodmask; now rewrite map_length]).
  destruct (alloc (map (fun _ => NaN) good) m1) as [[u|e] m2] eqn:EA; [|discriminate]. rewrite (then_ok _ _ _ _ _ EA).
  assert (MU := alloc_made _ _ _ _ EA). destruct (alloc_spec _ _ _ _ EA) as (Eu & Lu & L2 & F2). rewrite map_length in Eu.
  assert (NU : NoDup u) by apply MU. assert (Ul : length u = length good) by (rewrite Eu; apply seq_length). clear Eu EA.
  set (trend := negb (o_notrend (c_opt c))).
  destruct (o_twodim (c_opt c)).
  - destruct (alloc (look m2 u) m2) as [[v|e] m3] eqn:EV; [|discriminate].
    assert (EC : copy u m2 = (Ok v, m3)) by exact EV. rewrite (then_ok _ _ _ _ _ EC).
    assert (MV := alloc_made _ _ _ _ EV). destruct (alloc_spec _ _ _ _ EV) as (Ev & Lv & L3 & F3). rewrite look_length in Ev.
    assert (NV : NoDup v) by apply MV. assert (Vl : length v = length good) by (rewrite Ev, seq_length; exact Ul). clear Ev EV EC.
    assert (AP := made_apart _ _ _ _ _ MU MV). rewrite Lu in Lv.
    assert (Lu3 : look m3 u = map (fun _ => NaN) good). { rewrite <- Lu. apply later_look; [exact L3|]. destruct MU as [_ MU]. eapply Forall_impl; [|exact MU]. cbn. intros; lia. }
    destruct (key (c_umean c)) as [um|e]; [|eexists; reflexivity]. rewrite (then_ok _ _ m3 um m3 eq_refl). cbn [bind].
    destruct (put_spec u good (map (fun z => xpart (fun f => fst f + um) z) fit) m3 NU Ul Lu3) as (m4 & E4 & W4); [now rewrite map_length, LF|].
    rewrite (then_ok _ _ _ _ _ E4). destruct (key (c_vmean c)) as [vm|e]; [|eexists; reflexivity]. rewrite (then_ok _ _ m4 vm m4 eq_refl). cbn [bind].
    destruct (put_spec v good (map (fun z => xpart (fun f => snd f + vm) z) fit) m4 NV Vl) as (m5 & E5 & W5).
    { rewrite (wrote_other _ _ _ _ _ W4 (apart_sym _ _ AP)). exact Lv. } { now rewrite map_length, LF. }
    rewrite (then_ok _ _ _ _ _ E5).
    assert (Lu5 : look m5 u = scatter good (map (fun z => xpart (fun f => fst f + um) z) fit)) by (rewrite (wrote_other _ _ _ _ _ W5 AP); apply W4).
    assert (D : forall m', free m' = free m5 -> Forall (made_between m m') [u; v]).
    { intros m' Hm. rewrite (wr_free _ _ _ _ W5), (wr_free _ _ _ _ W4) in Hm. repeat constructor.
      - apply MU.
      - destruct MU as [_ MU]. eapply Forall_impl; [|exact MU]. cbn. destruct L1, L3. intros; lia.
      - apply MV.
      - destruct MV as [_ MV]. eapply Forall_impl; [|exact MV]. cbn. destruct L1, L2. intros; lia. }
    destruct trend.
    + destruct (key (c_uslope c)) as [us|e]; [|eexists; reflexivity]. cbn [bind].
      destruct (add_spec u good _ (map (fun x => Fin (us * (x - c_reftime c))) t) m5 NU Ul Lu5) as (m6 & E6 & W6); [now rewrite map_length, LF|now rewrite !map_length, LF|].
      destruct (key (c_vslope c)) as [vs|e]; cbn [bind].
      2: { eexists. apply then_err. rewrite (then_ok _ _ m5 us m5 eq_refl), (then_ok _ _ _ _ _ E6). reflexivity. }
      destruct (add_spec v good (map (fun z => xpart (fun f => snd f + vm) z) fit) (map (fun x => Fin (vs * (x - c_reftime c))) t) m6 NV Vl) as (m7 & E7 & W7).
      { rewrite (wrote_other _ _ _ _ _ W6 (apart_sym _ _ AP)). apply W5. } { now rewrite map_length, LF. } { now rewrite !map_length, LF. }
      exists (RVector u v), m7. split; [|split; [|split]].
      * etransitivity; [apply (then_ok _ _ _ tt m7)|reflexivity]. rewrite (then_ok _ _ m5 us m5 eq_refl), (then_ok _ _ _ _ _ E6), (then_ok _ _ m6 vs m6 eq_refl). exact E7.
      * cbn [show]. rewrite (wrote_other _ _ _ _ _ W7 AP), (wr_look _ _ _ _ W6), (wr_look _ _ _ _ W7), !trend_value by exact LF. reflexivity.
      * apply D. rewrite (wr_free _ _ _ _ W7), (wr_free _ _ _ _ W6). reflexivity.
      * cbn. intros a b H. injection H as <- <-. exact AP.
    + cbn [bind]. exists (RVector u v), m5. split; [reflexivity|]. split; [|split].
      * cbn [show]. rewrite Lu5, (wr_look _ _ _ _ W5), (flat_value _ _ fit t LF), (flat_value _ _ fit t LF). reflexivity.
      * now apply D.
      * cbn. intros a b H. injection H as <- <-. exact AP.
  - destruct (key (c_mean c)) as [mn|e]; [|eexists; reflexivity]. rewrite (then_ok _ _ m2 mn m2 eq_refl). cbn [bind].
    destruct (put_spec u good (map (fun z => xpart (fun f => fst f + mn) z) fit) m2 NU Ul Lu) as (m4 & E4 & W4); [now rewrite map_length, LF|].
    rewrite (then_ok _ _ _ _ _ E4).
    assert (D : forall m', free m' = free m4 -> Forall (made_between m m') [u]).
    { intros m' Hm. rewrite (wr_free _ _ _ _ W4) in Hm. repeat constructor; [apply MU|].
      destruct MU as [_ MU]. eapply Forall_impl; [|exact MU]. cbn. destruct L1. intros; lia. }
    destruct trend.
    + destruct (key (c_slope c)) as [sl|e]; [|eexists; reflexivity]. cbn [bind].
      destruct (add_spec u good _ (map (fun x => Fin (sl * (x - c_reftime c))) t) m4 NU Ul (wr_look _ _ _ _ W4)) as (m6 & E6 & W6); [now rewrite map_length, LF|now rewrite !map_length, LF|].
      exists (RScalar u), m6. split; [|split; [|split]].
      * etransitivity; [apply (then_ok _ _ _ tt m6)|reflexivity]. rewrite (then_ok _ _ m4 sl m4 eq_refl). exact E6.
      * cbn [show]. rewrite (wr_look _ _ _ _ W6), trend_value by exact LF. reflexivity.
      * apply D. apply W6.
      * discriminate.
    + cbn [bind]. exists (RScalar u), m4. split; [reflexivity|]. split; [|split].
      * cbn [show]. rewrite (wr_look _ _ _ _ W4), (flat_value _ _ fit t LF). reflexivity.
      * now apply D.
      * discriminate.
Qed.
