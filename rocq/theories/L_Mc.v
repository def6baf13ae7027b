(** Monte-Carlo intervals of one constituent: when they are computed. *)
From Coq Require Import Lia Lra.
From Verif Require Import M_Base M_Lib M_Options M_Slvinit M_Select M_Ellipse M_Robust M_Period M_Conf S_Conf S_Period S_McAccept
  L_Base L_Select L_Conf L_Conf2 L_Period L_Sampled.
Open Scope R_scope.

Definition fin (x : xr) : Prop := exists a, x = Fin a.
Lemma fin_Fin a : fin (Fin a). Proof. now exists a. Qed.
Lemma fin_NaN : ~ fin NaN. Proof. intros [a H]; discriminate. Qed.
Lemma sgn_inf_not a : ~ fin (sgn_inf a).
Proof. intros [b H]. unfold sgn_inf in H. destruct (Rlt_dec 0 a); [discriminate|]. destruct (Rlt_dec a 0); discriminate. Qed.
Lemma fin_add x y : fin (xadd x y) -> fin x /\ fin y.
Proof. intros [a H]. destruct x, y; try discriminate. split; apply fin_Fin. Qed.
Lemma fin_mul x y : fin (xmul x y) -> fin x /\ fin y.
Proof. intros H. destruct x, y; try (split; apply fin_Fin); exfalso; cbn [xmul] in H; (now apply sgn_inf_not in H) || (destruct H; discriminate). Qed.
Lemma fin_sqrt x : fin (xsqrt x) -> fin x.
Proof. intros [a H]. destruct x; try discriminate. apply fin_Fin. Qed.
Lemma fin_sq x : fin (xsq x) -> fin x.
Proof. intros H. now apply fin_mul in H. Qed.
Lemma fin_x4 f s1 s2 s3 s4 : fin (x4 f (s1, s2, s3, s4)) -> fin s1 /\ fin s2 /\ fin s3 /\ fin s4.
Proof.
  destruct f as [[[f1 f2] f3] f4]. cbn [x4]. intros H. apply fin_sqrt in H. apply fin_add in H. destruct H as [H H4]. apply fin_add in H. destruct H as [H H3]. apply fin_add in H. destruct H as [H1 H2].
  repeat split; apply fin_sq; [apply fin_mul in H1|apply fin_mul in H2|apply fin_mul in H3|apply fin_mul in H4]; tauto.
Qed.
Lemma fin_complex a b : fin (fst (xcomplex a b)) -> fin a /\ fin b.
Proof. cbn [xcomplex fst]. destruct b; intros H; try (now apply fin_NaN in H). split; [exact H|apply fin_Fin]. Qed.
Lemma fin_linci Xu Yu Xv Yv s1 s2 s3 s4 : fin (fst (fst (ut_linci Xu Yu Xv Yv s1 s2 s3 s4))) -> fin s1 /\ fin s2 /\ fin s3 /\ fin s4.
Proof.
  unfold ut_linci. cbv zeta. destruct (Req_EM_T Xv 0); cbn [fst].
  - apply fin_x4.
  - intros H. apply fin_complex in H. destruct H as [H _]. revert H. apply fin_x4.
Qed.

(** a share of a level is a number only if the whole is not zero *)
Lemma fin_share P a d : fin (xdiv (xmul P (Fin a)) (Fin d)) -> fin P /\ d <> 0.
Proof.
  intros H. destruct P; cbn [xmul] in H.
  - split; [apply fin_Fin|]. intros ->. cbn [xdiv] in H. destruct (Req_EM_T 0 0); [|congruence]. now apply sgn_inf_not in H.
  - exfalso. unfold sgn_inf in H. destruct (Rlt_dec 0 a); [|destruct (Rlt_dec a 0)]; cbn [xdiv] in H; try destruct (Rle_dec 0 d); destruct H; discriminate.
  - exfalso. unfold sgn_inf in H. destruct (Rlt_dec 0 (- a)); [|destruct (Rlt_dec (- a) 0)]; cbn [xdiv] in H; try destruct (Rle_dec 0 d); destruct H; discriminate.
  - destruct H; discriminate.
Qed.
Lemma share_fin P a d : fin P -> d <> 0 -> fin (xdiv (xmul P (Fin a)) (Fin d)).
Proof. intros [p ->] H. cbn [xmul xdiv]. destruct (Req_EM_T d 0); [contradiction|]. apply fin_Fin. Qed.

Lemma linear1_fin Xu Yu a b P : fin (ci_maj (linear1 Xu Yu (Fin a) (Fin b) P)) -> match P with Some P => fin P /\ a + b <> 0 | None => True end.
Proof.
  unfold linear1. destruct P as [P|]; [|trivial]. intros H.
  match type of H with context [ut_linci ?x1 ?x2 ?x3 ?x4 ?x5 ?x6 ?x7 ?x8] => assert (E := fin_linci x1 x2 x3 x4 x5 x6 x7 x8); destruct (ut_linci x1 x2 x3 x4 x5 x6 x7 x8) as [[s1 t1] [s2 t2]] end.
  cbn [fst ci_maj] in *. apply fin_mul in H. destruct (E (proj2 H)) as [H1 _]. apply fin_sqrt in H1. cbn [xadd] in H1. now apply fin_share in H1.
Qed.
Lemma linear1_nan Xu Yu P : ~ fin (ci_maj (linear1 Xu Yu NaN NaN P)).
Proof.
  unfold linear1. intros H. assert (N : forall P, xmul P NaN = NaN) by (intros []; reflexivity).
  destruct P as [P|];
  (match type of H with context [ut_linci ?x1 ?x2 ?x3 ?x4 ?x5 ?x6 ?x7 ?x8] => assert (E := fin_linci x1 x2 x3 x4 x5 x6 x7 x8); destruct (ut_linci x1 x2 x3 x4 x5 x6 x7 x8) as [[s1 t1] [s2 t2]] end;
   cbn [fst ci_maj] in *; apply fin_mul in H; destruct (E (proj2 H)) as [H1 _]; apply fin_sqrt in H1); [rewrite N in H1|]; now apply fin_NaN in H1.
Qed.
Lemma linear2_fin Xu Yu Xv Yv a b c d P : fin (ci_maj (linear2 Xu Yu Xv Yv (Fin a) (Fin b) (Fin c) (Fin d) P)) -> match P with Some P => fin P /\ c + d <> 0 | None => True end.
Proof.
  unfold linear2. destruct P as [P|]; [|trivial]. intros H. unfold csig in H.
  destruct (xcomplex (xsqrt (Fin a)) (xsqrt (xdiv (xmul P (Fin c)) (xadd (Fin c) (Fin d))))) as [s1 s3] eqn:E1.
  destruct (xcomplex (xsqrt (Fin b)) (xsqrt (xdiv (xmul P (Fin d)) (xadd (Fin c) (Fin d))))) as [s2 s4] eqn:E2.
  match type of H with context [ut_linci ?x1 ?x2 ?x3 ?x4 ?x5 ?x6 ?x7 ?x8] => assert (E := fin_linci x1 x2 x3 x4 x5 x6 x7 x8); destruct (ut_linci x1 x2 x3 x4 x5 x6 x7 x8) as [[q1 t1] [q2 t2]] end.
  cbn [fst ci_maj] in *. apply fin_mul in H. destruct (E (proj2 H)) as (H1 & _). assert (F := f_equal fst E1). cbn [fst] in F. rewrite <- F in H1. apply fin_complex in H1.
  destruct H1 as [_ H1]. apply fin_sqrt in H1. cbn [xadd] in H1. now apply fin_share in H1.
Qed.
Lemma linear2_nan Xu Yu Xv Yv P : ~ fin (ci_maj (linear2 Xu Yu Xv Yv NaN NaN NaN NaN P)).
Proof.
  unfold linear2. intros H. destruct (match P with Some P0 => _ | None => (NaN, NaN) end) as [wX wY]. unfold csig in H.
  destruct (xcomplex (xsqrt NaN) (xsqrt wX)) as [s1 s3] eqn:E1. destruct (xcomplex (xsqrt NaN) (xsqrt wY)) as [s2 s4] eqn:E2.
  match type of H with context [ut_linci ?x1 ?x2 ?x3 ?x4 ?x5 ?x6 ?x7 ?x8] => assert (E := fin_linci x1 x2 x3 x4 x5 x6 x7 x8); destruct (ut_linci x1 x2 x3 x4 x5 x6 x7 x8) as [[q1 t1] [q2 t2]] end.
  cbn [fst ci_maj] in *. apply fin_mul in H. destruct (E (proj2 H)) as (H1 & _). assert (F := f_equal fst E1). cbn [fst] in F. rewrite <- F in H1. apply fin_complex in H1.
  destruct H1 as [H1 _]. now apply fin_NaN in H1.
Qed.

(** ** the sampling succeeds *)
Lemma all_some_map {A} (l : list A) : all_some (map Some l) = Some l.
Proof. induction l as [|x l IH]; [reflexivity|]. cbn [map all_some]. now rewrite IH. Qed.
Lemma need_fin2 a b c d : fin a -> fin b -> fin c -> fin d -> exists M, need_finite [[a; b]; [c; d]] = Ok M /\ square 2 M.
Proof. intros [p ->] [q ->] [r ->] [s ->]. eexists. split; [reflexivity|]. split; [reflexivity|]. repeat constructor. Qed.
Lemma need_fin4 A B C D : (forall M, In M [A; B; C; D] -> exists a b c d, M = [[a; b]; [c; d]] /\ fin a /\ fin b /\ fin c /\ fin d) ->
  exists M, need_finite (block4 A B C D) = Ok M /\ square 4 M.
Proof.
  intros H. destruct (H A) as (a1 & a2 & a3 & a4 & -> & [q1 ->] & [q2 ->] & [q3 ->] & [q4 ->]); [cbn; auto|].
  destruct (H B) as (a1 & a2 & a3 & a4 & -> & [q5 ->] & [q6 ->] & [q7 ->] & [q8 ->]); [cbn; auto|].
  destruct (H C) as (a1 & a2 & a3 & a4 & -> & [r1 ->] & [r2 ->] & [r3 ->] & [r4 ->]); [cbn; auto|].
  destruct (H D) as (a1 & a2 & a3 & a4 & -> & [r5 ->] & [r6 ->] & [r7 ->] & [r8 ->]); [cbn; auto|].
  eexists. split; [reflexivity|]. split; [reflexivity|]. repeat constructor.
Qed.

Section Draw.
Variable L : lib.
Hypothesis VR : mvn_returns L.
Hypothesis VS : mvn_shape L.

Lemma spd_returns n A : (eigvals_returns L) -> forall fuel M k, square (S n) M -> (k + fuel > 101)%nat -> (k <= 100)%nat -> exists r, spd_loop L (S n) A fuel M k = Ok r.
Proof.
  intros ER. induction fuel as [|fuel IH]; intros M k Sq Hf Hk; [lia|]. cbn [spd_loop].
  destruct (Nat.eqb k 0 || negb (l_is_PD L M))%bool; [|eauto]. destruct (ER n M Sq) as [ev ->]. cbn [bind].
  destruct (Nat.ltb 100 (S k)) eqn:E; [eauto|]. apply Nat.ltb_ge in E. apply IH; [apply square_mk|lia|lia].
Qed.
Lemma symm_symmetric n A : symmetric n (symm n A).
Proof.
  intros i j Hi Hj. unfold symm. assert (E : forall i j, (i < n)%nat -> (j < n)%nat -> entry_of (mk_mat n (fun i j => (rent A i j + rent A j i) / 2)) i j = (rent A i j + rent A j i) / 2) by (intros; now apply entry_mk).
  rewrite !E by assumption. lra.
Qed.
Lemma nearest_returns n A : svd_returns L -> eigvals_returns L -> exists r, nearestSPD L (S n) A = Ok r /\ square (S n) (fst (fst r)).
Proof.
  intros SR ER. assert (X : exists r, nearestSPD L (S n) A = Ok r).
  { unfold nearestSPD. destruct (SR n (symm (S n) A) (square_mk _ _) (symm_symmetric _ _)) as [[[U sv] V] ->]. cbn [bind]. apply spd_returns; [exact ER|apply square_mk|lia|lia]. }
  destruct X as [[[r w] k] X]. exists (r, w, k). split; [exact X|]. cbn [fst]. destruct (nearest_ok _ _ _ _ _ _ X) as [(_ & _ & H & _)|(_ & _ & H)]; [exact H|apply H].
Qed.

Lemma draw1 c Xu Yu g D tr P n : (0 < n)%nat -> (match P with Some P => svd_returns L /\ eigvals_returns L /\ exists A, need_finite (rescale P D tr) = Ok A | None => exists A, need_finite D = Ok A /\ square 2 A end) ->
  exists w, mc1 L c Xu Yu g D tr P n = Ok w.
Proof.
  intros Hn H. unfold mc1.
  assert (C : exists cov, square 2 cov /\ match P with
            | Some P => do A <- need_finite (rescale P D tr); do r <- nearestSPD L 2 A; Ok (fst (fst r))
            | None => need_finite D end = Ok cov).
  { destruct P as [P|].
    - destruct H as (SR & ER & A & ->). cbn [bind]. destruct (nearest_returns 1 A SR ER) as (r & -> & Sq). cbn [bind]. eauto.
    - destruct H as (A & H1 & H2). eauto. }
  destruct C as (cov & Sq & ->). cbn [bind]. destruct (VR c [Xu; Yu] cov n Sq) as [smp E]. rewrite E. cbn [bind].
  destruct (VS _ _ _ _ _ E) as [Hl Hr].
  assert (M : exists ep, cs2cep_mat smp = Ok ep /\ length ep = length smp).
  { clear - Hr. unfold cs2cep_mat. induction Hr as [|row smp H Hr IH]; [exists []; auto|]. destruct IH as (ep & E & Hl). cbn [mapM]. destruct row as [|a [|b [|? ?]]]; try discriminate.
    cbn [cs2cep_row bind]. rewrite E. cbn [bind]. eexists. split; [reflexivity|]. cbn [length]. now rewrite Hl. }
  destruct M as (ep & -> & Hep). cbn [bind]. cbv zeta. destruct ep; [cbn in Hep; lia|eauto].
Qed.
Lemma draw2 c Xu Yu Xv Yv g th Duu Dvv Duv truu trvv P n : (0 < n)%nat ->
  (match P with
   | Some (Puu, Pvv, Puv) => svd_returns L /\ eigvals_returns L /\
       let s := xsum (map xabs (List.concat Duv)) in let Duv' := if xlt (Fin 0) s then rescale Puv Duv s else map (map (fun _ => Fin 0)) Duv in
       exists A, need_finite (block4 (rescale Puu Duu truu) Duv' (transp2 Duv') (rescale Pvv Dvv trvv)) = Ok A
   | None => exists A, need_finite (block4 Duu Duv (transp2 Duv) Dvv) = Ok A /\ square 4 A end) ->
  exists w, mc2 L c Xu Yu Xv Yv g th Duu Dvv Duv truu trvv P n = Ok w.
Proof.
  intros Hn H. unfold mc2.
  match goal with |- exists w, bind ?X _ = _ => assert (C : exists cov, square 4 cov /\ X = Ok cov) end.
  { destruct P as [[[Puu Pvv] Puv]|].
    - destruct H as (SR & ER & H). cbv zeta in *. destruct H as (A & ->). cbn [bind]. destruct (nearest_returns 3 A SR ER) as (r & -> & Sq). cbn [bind]. eauto.
    - destruct H as (A & H1 & H2). eauto. }
  destruct C as (cov & Sq & ->). cbn [bind]. destruct (VR c [Xu; Yu; Xv; Yv] cov n Sq) as [smp E]. rewrite E. cbn [bind].
  destruct (VS _ _ _ _ _ E) as [Hl Hr].
  assert (M : exists ep, cs2cep_mat smp = Ok ep /\ length ep = length smp).
  { clear - Hr. unfold cs2cep_mat. induction Hr as [|row smp H Hr IH]; [exists []; auto|]. destruct IH as (ep & E & Hl). cbn [mapM]. destruct row as [|a [|b [|? [|? [|? ?]]]]]; try discriminate.
    cbn [cs2cep_row bind]. rewrite E. cbn [bind]. eexists. split; [reflexivity|]. cbn [length]. now rewrite Hl. }
  destruct M as (ep & -> & Hep). cbn [bind]. cbv zeta. destruct ep; [cbn in Hep; lia|eauto].
Qed.

(** ** one constituent: whenever the linearised half-width is a number *)
Lemma sum_abs a b c d : exists s, xsum (map xabs (List.concat [[Fin a; Fin b]; [Fin c; Fin d]])) = Fin s /\ 0 <= s.
Proof. eexists. split; [reflexivity|]. pose proof (Rabs_pos a). pose proof (Rabs_pos b). pose proof (Rabs_pos c). pose proof (Rabs_pos d). lra. Qed.

Lemma one_mc o ol gam p nc c Xu Yu Xv Yv g th g' th' w : o_linci ol = true -> o_linci o = false -> o_twodim ol = o_twodim o -> (0 < o_nrlzn o)%nat ->
  conf_one L ol gam p nc c Xu Yu Xv Yv g th = Ok w -> fin (ci_maj w) ->
  (p <> None -> svd_returns L /\ eigvals_returns L) ->
  (o_twodim o = true -> p <> None -> (forall x, n_vv p c = Some x -> fin x -> forall y z, n_uu p c = Some y -> n_uv p c = Some z -> fin y /\ fin z) /\
     forall gm, gam = Some gm -> varXu (block true gm nc c) (block true gm nc c) + varYu (block false gm nc c) (block false gm nc c) <> 0) ->
  exists w', conf_one L o gam p nc c Xu Yu Xv Yv g' th' = Ok w'.
Proof.
  intros E1 E2 E3 Hn H F RT V. unfold conf_one in *. rewrite E1 in H. rewrite E2. rewrite E3 in H. apply Ok_inj in H.
  destruct gam as [gm|].
  2: { exfalso. rewrite <- H in F. destruct (o_twodim o); [now apply linear2_nan in F|now apply linear1_nan in F]. }
  destruct (o_twodim o) eqn:ET.
  - rewrite <- H in F. apply linear2_fin in F. apply draw2; [exact Hn|].
    destruct p as [[pu pq]|]; cbn [n_uu n_vv n_uv option_map] in *.
    + destruct (V eq_refl ltac:(discriminate)) as [V1 V2]. destruct F as [F1 F2]. destruct (V1 _ eq_refl F1 _ _ eq_refl eq_refl) as [G1 G2]. specialize (V2 gm eq_refl).
      destruct (RT ltac:(discriminate)) as [R1 R2]. split; [exact R1|]. split; [exact R2|]. cbv zeta. cbn [xadd].
      match goal with |- context [xsum (map xabs (List.concat [[Fin ?a; Fin ?b]; [Fin ?c0; Fin ?d]]))] => destruct (sum_abs a b c0 d) as (s & -> & Hs); set (xa := a); set (xb := b); set (xc := c0); set (xd := d) end.
      match goal with |- context [block4 _ ?D _ _] => assert (DU : exists a b c0 d, D = [[a; b]; [c0; d]] /\ fin a /\ fin b /\ fin c0 /\ fin d); [|remember D as Duv'] end.
      { destruct (xlt (Fin 0) (Fin s)) eqn:EL.
        - cbn [rescale map]. do 4 eexists. split; [reflexivity|]. assert (s <> 0) by (intros ->; unfold xlt, xge in EL; destruct (Rle_dec 0 0); [discriminate|lra]).
          repeat split; apply share_fin; auto.
        - cbn [map]. do 4 eexists. split; [reflexivity|]. repeat split; apply fin_Fin. }
      match goal with |- exists A, need_finite (block4 ?a ?b ?c0 ?d) = _ => destruct (need_fin4 a b c0 d) as (A & -> & _) end; [|eauto].
      intros M [<-|[<-|[<-|[<-|[]]]]].
      * cbn [rescale map]. do 4 eexists. split; [reflexivity|]. repeat split; apply share_fin; auto.
      * exact DU.
      * destruct DU as (a & b & c0 & d & -> & ?). do 4 eexists. split; [reflexivity|]. tauto.
      * cbn [rescale map]. do 4 eexists. split; [reflexivity|]. repeat split; apply share_fin; auto.
    + apply need_fin4. intros M [<-|[<-|[<-|[<-|[]]]]]; do 4 eexists; (split; [reflexivity|]); repeat split; apply fin_Fin.
  - rewrite <- H in F. apply linear1_fin in F. apply draw1; [exact Hn|].
    destruct p as [[pu pq]|]; cbn [n_uu option_map] in *.
    + destruct (RT ltac:(discriminate)) as [R1 R2]. split; [exact R1|]. split; [exact R2|]. destruct F as [F1 F2]. cbn [xadd rescale map].
      match goal with |- exists A, need_finite [[?a; ?b]; [?c0; ?d]] = _ => destruct (need_fin2 a b c0 d) as (A & -> & _) end; [| | | |eauto]; apply share_fin; auto.
    + apply need_fin2; apply fin_Fin.
Qed.

(** with white noise finite covariances are enough *)
Lemma one_white o gm nc c Xu Yu Xv Yv g th : o_linci o = false -> (0 < o_nrlzn o)%nat -> exists w, conf_one L o (Some gm) None nc c Xu Yu Xv Yv g th = Ok w.
Proof.
  intros E Hn. unfold conf_one. rewrite E. destruct (o_twodim o).
  - apply draw2; [exact Hn|]. cbn [n_uu option_map]. apply need_fin4. intros M [<-|[<-|[<-|[<-|[]]]]]; do 4 eexists; (split; [reflexivity|]); repeat split; apply fin_Fin.
  - apply draw1; [exact Hn|]. cbn [n_uu option_map]. apply need_fin2; apply fin_Fin.
Qed.
End Draw.

(** ** and when it does not *)
Lemma nf_first x l rest : ~ fin x -> forall M, need_finite ((x :: l) :: rest) <> Ok M.
Proof. intros N M H. unfold need_finite in H. destruct x; [exfalso; apply N, fin_Fin| | |]; discriminate. Qed.
Lemma one_none L o p nc c Xu Yu Xv Yv g th w : o_linci o = false -> conf_one L o None p nc c Xu Yu Xv Yv g th = Ok w -> False.
Proof.
  intros E H. unfold conf_one in H. rewrite E in H. assert (N : forall P, xmul P NaN = NaN) by (intros []; reflexivity).
  destruct (o_twodim o).
  - unfold mc2 in H. inv_bind H. clear H. revert Ha. match goal with |- match ?q with Some _ => _ | None => _ end = _ -> _ => destruct q as [[[a1 a2] a3]|] end; intros Ha.
    + cbv zeta in Ha. inv_bind Ha. revert Ha0. cbn [rescale map]. rewrite N. cbn [xdiv]. unfold block4. cbn [combine].
      match goal with |- context [combine _ ?D] => destruct D as [|[|? ?] ?] end; cbn [combine map fst snd app]; try apply nf_first; try apply fin_NaN; discriminate.
    + revert Ha. cbn [combine block4 map fst snd app]. apply nf_first, fin_NaN.
  - unfold mc1 in H. inv_bind H. clear H. destruct (n_uu p c).
    + inv_bind Ha. revert Ha0. cbn [rescale map]. rewrite N. cbn [xdiv]. apply nf_first, fin_NaN.
    + revert Ha. apply nf_first, fin_NaN.
Qed.
Lemma all_some_in {A} (l : list (option A)) r : all_some l = Some r -> forall x, In x l -> x <> None.
Proof.
  revert r. induction l as [|[a|] l IH]; intros r H x Hx; cbn [all_some] in H; [destruct Hx| |discriminate].
  destruct (all_some l) as [q|] eqn:E; [|discriminate]. destruct Hx as [<-|Hx]; [discriminate|eauto].
Qed.
Lemma need_finite_in l M : need_finite l = Ok M -> forall row x, In row l -> In x row -> fin x.
Proof.
  unfold need_finite, finite_mat. destruct (all_some (map all_some (map (map finite) l))) as [q|] eqn:E; [|discriminate]. intros _ row x Hr Hx.
  assert (N := all_some_in _ _ E (all_some (map finite row)) (in_map _ _ _ (in_map _ _ _ Hr))).
  destruct (all_some (map finite row)) as [r|] eqn:E2; [|congruence]. assert (N2 := all_some_in _ _ E2 (finite x) (in_map _ _ _ Hx)).
  destruct x; cbn in N2; try congruence. apply fin_Fin.
Qed.
Lemma one_zero L o gm p nc c Xu Yu Xv Yv g th w : o_linci o = false -> p <> None -> conf_one L o (Some gm) p nc c Xu Yu Xv Yv g th = Ok w ->
  varXu (block true gm nc c) (block true gm nc c) + varYu (block false gm nc c) (block false gm nc c) <> 0 /\
  (o_twodim o = true -> varXv (block false gm nc c) (block false gm nc c) + varYv (block true gm nc c) (block true gm nc c) <> 0).
Proof.
  intros E Hp H. unfold conf_one in H. rewrite E in H. destruct p as [[pu pq]|]; [|congruence]. cbn [n_uu n_vv n_uv option_map] in H.
  destruct (o_twodim o).
  - unfold mc2 in H. inv_bind H. clear H. cbv zeta in Ha. inv_bind Ha. clear Ha.
    cbn [xadd] in Ha0. revert Ha0. match goal with |- context [block4 _ ?D _ _] => assert (DU : exists x y z t, D = [[x; y]; [z; t]]) end.
    { destruct (xlt _ _); cbn [rescale map]; eauto 10. }
    destruct DU as (x & y & z & t & ->). intros Ha0. assert (F := need_finite_in _ _ Ha0). cbn [rescale map transp2 nth block4 combine fst snd app] in F. split; [|intros _].
    + eapply fin_share. eapply F; [left; reflexivity|left; reflexivity].
    + eapply fin_share. eapply F; [right; right; left; reflexivity|right; right; left; reflexivity].
  - split; [|discriminate]. unfold mc1 in H. inv_bind H. clear H. inv_bind Ha. clear Ha. assert (F := need_finite_in _ _ Ha0). cbn [xadd rescale map] in F.
    eapply fin_share. eapply F; [left; reflexivity|left; reflexivity].
Qed.

(** ** the levels of u, v and their product are numbers together *)
Definition alike {A} (a b : option A) : Prop := a = None <-> b = None.
Definition both (x y : xr) : Prop := fin x <-> fin y.
Lemma mask_alike : forall l P P' Q, Forall2 alike P P' -> mask_bins P l = Ok Q -> exists Q', mask_bins P' l = Ok Q' /\ Forall2 alike Q Q'.
Proof.
  induction l as [|i l IH]; intros P P' Q F H; cbn [mask_bins] in *; [apply Ok_inj in H; subst; eauto|].
  assert (HL := Forall2_len _ _ _ F). inv_bind H. unfold mask_bin in *. rewrite <- HL. destruct (Nat.ltb i (length P)); [|discriminate]. apply Ok_inj in Ha. subst a. cbn [bind].
  eapply IH; [|exact H]. clear - F. revert i. induction F as [|a b P P' H F IH]; intros i; [destruct i; constructor|].
  destruct i as [|i]; cbn [list_set]; constructor; auto. split; auto.
Qed.
Lemma mean_alike l l' : Forall2 alike l l' -> alike (masked_mean l) (masked_mean l').
Proof.
  intros F. assert (E : somes l = [] <-> somes l' = []).
  { induction F as [|a b l l' H F IH]; [tauto|]. unfold alike in H. unfold somes in *. destruct a as [a|], b as [b|]; cbn; try (split; discriminate); try (exfalso; destruct H as [H1 H2]; (now discriminate H1) || (now discriminate H2)). exact IH. }
  unfold masked_mean, alike. destruct (somes l), (somes l'); split; try discriminate; try tauto; intros _; exfalso; destruct E as [E1 E2]; (now discriminate E1) || (now discriminate E2).
Qed.
Lemma slice_alike {A} (l l' : list (option A)) i j : Forall2 alike l l' -> Forall2 alike (slice l i j) (slice l' i j).
Proof.
  unfold slice. intros F. assert (S : forall k, Forall2 alike (skipn k l) (skipn k l')).
  { induction F; intros [|k]; cbn [skipn]; auto. }
  specialize (S i). revert S. generalize (skipn i l) (skipn i l'). generalize (j - i)%nat. clear. induction n as [|n IH]; intros a b F; cbn [firstn]; [constructor|]. destruct F; constructor; auto.
Qed.
Lemma fbnd_alike P P' freq cf bands q q' : length P = length P' -> fbndavg P freq cf bands = Ok q -> fbndavg P' freq cf bands = Ok q' -> Forall2 alike q q'.
Proof.
  intros HL H H'. unfold fbndavg in *. destruct freq as [|f fr]; [discriminate|]. set (fq := f :: fr) in *. inv_bind H. apply Ok_inj in H. subst q. inv_bind H'. apply Ok_inj in H'. subst q'.
  assert (F : Forall2 alike (map Some P) (map Some P')).
  { clear - HL. revert P' HL. induction P as [|x P IH]; intros [|y P'] E; try discriminate; constructor; [split; discriminate|]. apply IH. now injection E. }
  destruct (mask_alike _ _ _ _ F Ha) as (Q' & E & G). rewrite E in Ha0. apply Ok_inj in Ha0. subst Q'.
  clear - G. induction bands as [|b bands IH]; cbn [map]; constructor; auto. apply mean_alike, slice_alike, G.
Qed.
Lemma level_both P P' f : Forall2 both P P' -> both (band_level P f) (band_level P' f).
Proof.
  unfold band_level. assert (both (Fin 0) (Fin 0)) by (split; auto). revert H. generalize (Fin 0) at 1 3 as a. generalize (Fin 0) as b. generalize freq_bands. intros bs a b H F. revert bs a b H.
  induction F as [|x y P P' Hxy F IH]; intros [|[lo hi] bs] a b H; cbn [combine fold_left]; auto. apply IH. destruct (_ && _)%bool; auto.
Qed.
Lemma scale_both df a b : alike a b -> both (xmul (xopt a) df) (xmul (xopt b) df).
Proof.
  intros H. assert (X : forall a b, alike a b -> fin (xmul (xopt a) df) -> fin (xmul (xopt b) df)).
  { clear. intros a b [H1 H2] F. destruct (fin_mul _ _ F) as [F1 [d ->]]. destruct a as [a|]; [|now apply fin_NaN in F1]. destruct b as [b|]; [|now discriminate H2]. apply fin_Fin. }
  split; apply X; auto. destruct H; split; auto.
Qed.
Lemma nth_both (f g : R -> xr) frq c : (forall x, both (f x) (g x)) -> both (nth_x (map f frq) c) (nth_x (map g frq) c).
Proof. intros H. unfold nth_x. revert c. induction frq as [|x frq IH]; intros [|c]; cbn [map nth]; auto; split; auto. Qed.

Lemma bands_alike L t eu ev cf equi r pv puv : (equi = false -> lomb_contract L) -> (equi = false -> length eu = length t) -> (forall e, ev = Some e -> length e = length eu) -> band_psd L t eu ev cf equi = Ok r ->
  b_Pvv r = Some pv -> b_Puv r = Some puv -> Forall2 alike pv (b_Puu r) /\ Forall2 alike pv puv.
Proof.
  intros LC LT LE H E1 E2. unfold band_psd in H. cbv zeta in H. destruct (Nat.ltb _ 2); [discriminate|].
  assert (TE : forall a b : list R, length a = length b -> length (trim_even a) = length (trim_even b)).
  { intros a b E. unfold trim_even. rewrite E. destruct (Nat.odd (length b)); auto.
    assert (K : forall l : list R, length (removelast l) = pred (length l)) by (intros l; rewrite removelast_firstn_len, firstn_length; lia). now rewrite !K, E. }
  destruct ev as [e|].
  2: { exfalso. cbn [option_map] in H. destruct equi; [|unfold psd_lomb in H; cbv zeta in H; cbn [option_map] in H]; inv_bind H; apply Ok_inj in H; subst r; discriminate E1. }
  specialize (LE e eq_refl). apply TE in LE. cbn [option_map] in H.
  assert (ML : forall (A B : Type) (f : A -> B) l, length (map f l) = length l) by (intros; apply map_length).
  destruct equi.
  - inv_bind H. inv_bind H. inv_bind H. apply Ok_inj in H. subst r. cbn [b_Pvv b_Puv b_Puu] in *. injection E1 as <-. injection E2 as <-.
    assert (LD : forall l : list R, length (double_interior l) = length l) by (intros l; unfold double_interior, enumerate; rewrite map_length, combine_length, seq_length; lia).
    assert (LR : forall x, length (demean x) = length x) by (intros; apply map_length).
    assert (LV : forall a b, length (rmulv a b) = Nat.min (length a) (length b)) by (intros; unfold rmulv; now rewrite map_length, combine_length).
    assert (LF : forall e, length (rfft e) = (length e / 2 + 1)%nat) by (intros; unfold rfft; now rewrite map_length, seq_length).
    split; (eapply fbnd_alike; [|eassumption|eassumption]); unfold psd, psd_cross; rewrite !ML, !LD, !ML, ?combine_length, !LF, !LV, !LR, LE; auto. lia.
  - unfold psd_lomb in H. cbv zeta in H. cbn [option_map] in H. inv_bind H. inv_bind H. inv_bind H. apply Ok_inj in H. subst r. cbn [b_Pvv b_Puv b_Puu] in *. injection E1 as <-. injection E2 as <-.
    assert (LV : forall a b, length (rmulv a b) = Nat.min (length a) (length b)) by (intros; unfold rmulv; now rewrite map_length, combine_length).
    assert (LR : forall x, length (demean x) = length x) by (intros; apply map_length).
    specialize (LT eq_refl). apply TE in LT.
    assert (LL : forall t x fr, length t = length x -> length (l_lomb L t x fr) = length fr) by (intros; symmetry; apply (Forall2_len _ _ _ (LC eq_refl _ _ _ H))).
    split; (eapply fbnd_alike; [|eassumption|eassumption]); rewrite !ML, ?LL; rewrite ?LV, ?LR, ?ML, ?LE, ?LT; auto; rewrite ?ML; lia.
Qed.
Lemma levels_both L tin t eu ev elor frq equi tw p c : (equi = false -> lomb_contract L) -> length eu = length t -> (forall e, ev = Some e -> length e = length t) ->
  band_averaged_psd_by_constit L tin t eu ev elor frq equi tw = Ok p ->
  forall x y z, n_vv (Some p) c = Some x -> n_uu (Some p) c = Some y -> n_uv (Some p) c = Some z -> fin x -> fin y /\ fin z.
Proof.
  intros LC LU LV H x y z X Y Z Fx. unfold band_averaged_psd_by_constit in H.
  destruct (_ && _)%bool; [discriminate|]. cbv zeta in H. inv_bind H. apply Ok_inj in H. subst p. cbn [n_vv n_uu n_uv option_map fst snd] in *. injection X as <-. injection Y as <-. injection Z as <-.
  destruct tw; [|now apply fin_NaN in Fx]. destruct (b_Pvv a) as [pv|] eqn:E1; [|now apply fin_NaN in Fx]. destruct (b_Puv a) as [puv|] eqn:E2; [|now apply fin_NaN in Fx].
  assert (A : Forall2 alike pv (b_Puu a) /\ Forall2 alike pv puv).
  { destruct equi.
    - eapply bands_alike; [| | |exact Ha|exact E1|exact E2]; try discriminate.
      intros e E. destruct ev as [e0|]; [|discriminate]. injection E as <-. cbn [andb]. destruct (Nat.ltb (length t) (length tin)); [now rewrite !map_length|]. rewrite LU. now apply LV.
    - eapply bands_alike; [| | |exact Ha|exact E1|exact E2]; auto. intros e E. rewrite LU. now apply LV. }
  destruct A as [A1 A2].
  assert (G : forall q q', Forall2 alike q q' -> Forall2 both (map (fun x => xmul (xopt x) (xdiv (Fin 1) (xmul elor (Fin 24)))) q) (map (fun x => xmul (xopt x) (xdiv (Fin 1) (xmul elor (Fin 24)))) q')).
  { clear. intros q q' F. induction F; cbn [map]; constructor; auto. now apply scale_both. }
  split; (revert Fx; refine (proj1 _); apply nth_both; intros f; apply level_both, G; assumption).
Qed.
