(** utide/confidence.py. *)
From Verif Require Import M_Base M_Lib M_Options M_Slvinit M_Select M_Ellipse M_Robust M_Period.
Open Scope R_scope.

(** ** Band-averaged noise level of every constituent *)

Definition xopt (a : option R) : xr := match a with Some x => Fin x | None => NaN end.

(** utide/confidence.py:42-47: the level of the (last) band containing f, 0 if in none *)
Definition band_level (P : list xr) (f : R) : xr :=
  fold_left (fun acc p => let '(lo, hi, x) := p in
                          if (if Rle_dec lo f then true else false) && (if Rle_dec f hi then true else false)
                          then x else acc)
            (combine freq_bands P) (Fin 0).

(** utide/confidence.py:18-48 (band_averaged_psd_by_constit): Puu, Pvv, Puv per constituent.
    e = eu + i ev; with evenly spaced times the residual is interpolated over the gaps. *)
Definition band_averaged_psd_by_constit (L : lib) (tin t eu : list R) (ev : option (list R))
    (elor : xr) (frq : list R) (equi twodim : bool)
  : res (list xr * option (list xr * list xr)) :=
  let gap := equi && Nat.ltb (length t) (length tin) in
  if gap && Nat.eqb (length t) 0 then Err ValueError   (* np.interp on an empty grid *)
  else
  let fill e := if gap then map (fun x => interp x t e) tin else e in
  do ba <- (if equi then band_psd L tin (fill eu) (option_map fill ev) frq true
            else band_psd L t eu ev frq false);
  let df := xdiv (Fin 1) (xmul elor (Fin 24)) in
  let level P := map (band_level (map (fun x => xmul (xopt x) df) P)) frq in
  Ok (level (b_Puu ba),
      if twodim then
        match b_Pvv ba, b_Puv ba with
        | Some pv, Some puv => Some (level pv, level puv)
        | _, _ => None
        end
      else None).

(** utide/confidence.py:51-60 (cluster), x non-empty *)
Definition cluster (x : list R) (ang : R) : list R :=
  let ha := ang / 2 in
  let ofs := - hd 0 x + ha in
  map (fun a => pymod (a + ofs) ang - ofs) x.

(** ** nearestSPD, utide/confidence.py:75-145 *)
Definition rrow (M : rmat) (i : nat) : list R := nth i M [].
Definition rent (M : rmat) (i j : nat) : R := nth j (rrow M i) 0.
Definition mk_mat (n : nat) (f : nat -> nat -> R) : rmat :=
  map (fun i => map (fun j => f i j) (seq 0 n)) (seq 0 n).
(** [(A + A.T) / 2] *)
Definition symm (n : nat) (A : rmat) : rmat := mk_mat n (fun i j => (rent A i j + rent A j i) / 2).
(** [np.dot(V.T * S, V)] *)
Definition polar (n : nat) (sv : list R) (V : rmat) : rmat :=
  mk_mat n (fun i j => rsum (map (fun k => rent V k i * nth k sv 0 * rent V k j) (seq 0 n))).
Definition add_diag (n : nat) (A : rmat) (x : R) : rmat :=
  mk_mat n (fun i j => rent A i j + (if Nat.eqb i j then x else 0)).
Definition diag_mat (l : list R) : rmat :=
  mk_mat (length l) (fun i j => if Nat.eqb i j then nth i l 0 else 0).

(** utide/confidence.py:130-145; [k] counts the adjustments.  The boolean of the result says whether
    the "did not converge" exit was taken. *)
Fixpoint spd_loop (L : lib) (n : nat) (A : rmat) (fuel : nat) (Ahat : rmat) (k : nat)
  : res (rmat * bool * nat) :=
  match fuel with
  | O => Err NameError        (* never reached with fuel 102; see the termination theorem *)
  | S fuel' =>
      if Nat.eqb k 0 || negb (l_is_PD L Ahat) then
        let k := S k in
        do ev <- l_eigvals L Ahat;
        let maxeig := rmax (map Cmod ev) 0 in
        let Ahat := add_diag n Ahat (l_spacing L maxeig) in
        if Nat.ltb 100 k then Ok (diag_mat (map (fun i => rent A i i) (seq 0 n)), true, k)
        else spd_loop L n A fuel' Ahat k
      else Ok (Ahat, false, k)
  end.

Definition nearestSPD (L : lib) (n : nat) (A : rmat) : res (rmat * bool * nat) :=
  let B := symm n A in
  do usv <- l_svd L B;
  let '(_, sv, V) := usv in
  let H := polar n sv V in
  let Ahat := mk_mat n (fun i j => (rent B i j + rent H i j) / 2) in
  let Ahat := symm n Ahat in
  spd_loop L n A 102 Ahat 0.

(** ** ut_linci, utide/confidence.py:403-490 *)

(** [a + 1j * b]: a non-finite b contaminates the real part with NaN *)
Definition xcomplex (a b : xr) : xr * xr := (match b with Fin _ => a | _ => NaN end, b).

Definition x4 (f s : xr * xr * xr * xr) : xr :=
  let '(f1, f2, f3, f4) := f in
  let '(s1, s2, s3, s4) := s in
  xsqrt (xadd (xadd (xadd (xmul (xsq f1) (xsq s1)) (xmul (xsq f2) (xsq s2))) (xmul (xsq f3) (xsq s3)))
              (xmul (xsq f4) (xsq s4))).

Definition deg : xr := Fin (180 / PI).
Definition xq (x : xr) : xr := xmul (Fin (/ 4)) x.

(** Result: ((sig_Lsmaj, sig_Lsmin), (sig_g, sig_theta)); for real results the second components
    are 0 (np.imag of a real number). *)
Definition ut_linci (Xu Yu Xv Yv : R) (sigXu sigYu sigXv sigYv : xr) : (xr * xr) * (xr * xr) :=
  let rp := Fin (/ 2 * sqrt (Rsqr (Xu + Yv) + Rsqr (Xv - Yu))) in
  let rm := Fin (/ 2 * sqrt (Rsqr (Xu - Yv) + Rsqr (Xv + Yu))) in
  let s := (sigXu, sigYu, sigXv, sigYv) in
  let ex := xdiv (Fin (Xu + Yv)) rp in
  let fx := xdiv (Fin (Xu - Yv)) rm in
  let gx := xdiv (Fin (Yu - Xv)) rp in
  let hx := xdiv (Fin (Yu + Xv)) rm in
  (* major axis *)
  let sig1 := x4 (xq (xadd ex fx), xq (xadd gx hx), xq (xsub hx gx), xq (xsub ex fx)) s in
  (* phase *)
  let rn := 2 * (Xu * Yu + Xv * Yv) in
  let rd := Rsqr Xu - Rsqr Yu + Rsqr Xv - Rsqr Yv in
  let den := Fin (Rsqr rn + Rsqr rd) in
  let sig2 := xmul deg (x4 (xdiv (Fin (rd * Yu - rn * Xu)) den, xdiv (Fin (rd * Xu + rn * Yu)) den,
                            xdiv (Fin (rd * Yv - rn * Xv)) den, xdiv (Fin (rd * Xv + rn * Yv)) den) s) in
  (* np.isreal(X): the imaginary part is zero *)
  if Req_EM_T Xv 0 then ((sig1, Fin 0), (sig2, Fin 0))
  else
    let smin := x4 (xq (xsub ex fx), xq (xsub gx hx), xq (xadd hx gx), xq (xadd ex fx)) s in
    let rn := 2 * (Xu * Xv + Yu * Yv) in
    let rd := Rsqr Xu + Rsqr Yu - (Rsqr Xv + Rsqr Yv) in
    let den := Fin (Rsqr rn + Rsqr rd) in
    let stheta := xmul deg (x4 (xdiv (Fin (rd * Xv - rn * Xu)) den, xdiv (Fin (rd * Yv - rn * Yu)) den,
                                xdiv (Fin (rd * Xu + rn * Xv)) den, xdiv (Fin (rd * Yu + rn * Yv)) den) s) in
    (xcomplex sig1 smin, xcomplex sig2 stheta).

(** ** Covariances, utide/confidence.py:189-206 *)
Definition cent (M : cmat) (i j : nat) : C := nth j (nth i M []) (RtoC 0).
Definition cconj_mat (M : cmat) : cmat := map (map Cconj) M.
(** [np.dot(M.T, W[:, None] * N)] *)
Definition gram (M N : cmat) (W : list R) (nm : nat) : cmat :=
  map (fun a => map (fun b =>
         csum (map (fun p => Cmult (Cmult (nth a (fst (fst p)) (RtoC 0)) (RtoC (snd p)))
                                   (nth b (snd (fst p)) (RtoC 0)))
                   (combine (combine M N) W))) (seq 0 nm)) (seq 0 nm).
Definition wdot (a b : list C) (W : list R) : C :=
  csum (map (fun p => Cmult (Cmult (fst (fst p)) (RtoC (snd p))) (snd (fst p))) (combine (combine a b) W)).

(** gamC and gamP; None when the number of samples equals the number of parameters or a weight is
    not finite (all entries are then non-finite). *)
Definition gammas (L : lib) (B : cmat) (nm : nat) (W : list xr) (xraw xmod : list C)
  : res (option (cmat * cmat)) :=
  match all_finite W with
  | None => Ok None
  | Some W =>
      let nt := length xraw in
      let dof := INR nt - INR nm in
      do iC <- l_inv L (gram (cconj_mat B) B W nm);
      do iP <- l_inv L (gram B B W nm);
      if Req_EM_T dof 0 then Ok None
      else
        let varMSM := fst (Cminus (wdot (map Cconj xraw) xraw W) (wdot (map Cconj xmod) xraw W)) / dof in
        let fP := Cdiv (Cminus (wdot xraw xraw W) (wdot xmod xraw W)) (RtoC dof) in
        Ok (Some (map (map (fun z => Cmult z (RtoC varMSM))) iC, map (map (fun z => Cmult z fP)) iP))
  end.

(** entries G[0,0], G[0,1], G[1,0], G[1,1] of gamC + sign * gamP for constituent c;
    utide/confidence.py:205-206, 223-228 *)
Definition block (add : bool) (gam : cmat * cmat) (nc c : nat) : C * C * C * C :=
  let e i j := let a := cent (fst gam) i j in let b := cent (snd gam) i j in
               if add then Cplus a b else Cminus a b in
  (e c c, e c (c + nc)%nat, e (c + nc)%nat c, e (c + nc)%nat (c + nc)%nat).

Definition re4 (a b d : C) (s : R) : R := (fst a + fst d + s * (2 * fst b)) / 2.
(** utide/confidence.py:229-234 *)
Definition varXu (G H : C * C * C * C) : R := let '(g00, g01, g10, g11) := G in re4 g00 g01 g11 1.
Definition varYu (G H : C * C * C * C) : R := let '(h00, h01, h10, h11) := H in re4 h00 h01 h11 (-1).
Definition varXv (G H : C * C * C * C) : R := let '(h00, h01, h10, h11) := H in re4 h00 h01 h11 1.
Definition varYv (G H : C * C * C * C) : R := let '(g00, g01, g10, g11) := G in re4 g00 g01 g11 (-1).

(** result for one constituent: half-widths and the diagonal of varcov_mCw / varcov_mCc *)
Record ci := { ci_maj : xr; ci_min : xr; ci_theta : xr; ci_g : xr; ci_vc : list xr }.

Definition z196 : xr := Fin (196 / 100).

(** utide/confidence.py:237-246: linearized, scalar.  [P] = None means white noise. *)
Definition linear1 (Xu Yu : R) (vXu vYu : xr) (P : option xr) : ci :=
  let '(vX, vY) :=
    match P with
    | None => (vXu, vYu)
    | Some P => let den := xadd vXu vYu in (xdiv (xmul P vXu) den, xdiv (xmul P vYu) den)
    end in
  let '((s1, _), (s2, _)) := ut_linci Xu Yu 0 0 (xsqrt vX) (xsqrt vY) (Fin 0) (Fin 0) in
  {| ci_maj := xmul z196 s1; ci_min := NaN; ci_theta := NaN; ci_g := xmul z196 s2; ci_vc := [vX; vY] |}.

(** [np.sqrt(a) + 1j * np.sqrt(b)] *)
Definition csig (a b : xr) : xr * xr := xcomplex (xsqrt a) (xsqrt b).

(** utide/confidence.py:247-266: linearized, vector; only the v variances are rescaled *)
Definition linear2 (Xu Yu Xv Yv : R) (vXu vYu vXv vYv : xr) (Pvv : option xr) : ci :=
  let '(wXv, wYv) :=
    match Pvv with
    | None => (vXv, vYv)
    | Some P => let den := xadd vXv vYv in (xdiv (xmul P vXv) den, xdiv (xmul P vYv) den)
    end in
  let '(sXu, sXv) := csig vXu wXv in
  let '(sYu, sYv) := csig vYu wYv in
  let '((s1, s1i), (s2, s2i)) := ut_linci Xu Yu Xv Yv sXu sYu sXv sYv in
  {| ci_maj := xmul z196 s1; ci_min := xmul z196 s1i; ci_theta := xmul z196 s2i; ci_g := xmul z196 s2;
     ci_vc := [vXu; vYu; wXv; wYv] |}.

(** [1.96 * median(|x - median(x)|) / 0.6745] *)
Definition mad196 (x : list R) : R :=
  196 / 100 * median (map (fun a => Rabs (a - median x)) x) / (6745 / 10^4).

(** a matrix with finite entries; numpy's svd raises LinAlgError otherwise *)
Definition need_finite (l : list (list xr)) : res rmat :=
  match finite_mat (map (map finite) l) with Some M => Ok M | None => Err LinAlgError end.

(** [P * D / trace(D)] for a 2x2 matrix *)
Definition rescale (P : xr) (D : list (list xr)) (tr : xr) : list (list xr) :=
  map (map (fun d => xdiv (xmul P d) tr)) D.

(** replace element 0 *)
Definition set0 (x : R) (l : list R) : list R := match l with [] => [] | _ :: l' => x :: l' end.

(** utide/confidence.py:269-299: Monte Carlo, scalar *)
Definition mc1 (L : lib) (c : nat) (Xu Yu g : R) (D : list (list xr)) (tr : xr) (P : option xr) (nrlzn : nat)
  : res ci :=
  do cov <- match P with
            | Some P => do A <- need_finite (rescale P D tr);
                        do r <- nearestSPD L 2 A; Ok (fst (fst r))
            | None => need_finite D
            end;
  do mC <- l_mvn L c [Xu; Yu] cov nrlzn;
  do ep <- cs2cep_mat mC;
  let gs := cluster (set0 g (map e_g ep)) 360 in
  match ep with
  | [] => Err IndexError
  | _ => Ok {| ci_maj := Fin (mad196 (map e_maj ep)); ci_min := NaN; ci_theta := NaN;
               ci_g := Fin (mad196 gs); ci_vc := [] |}
  end.

Definition block4 (A B C D : list (list xr)) : list (list xr) :=
  (map (fun p => fst p ++ snd p) (combine A B) ++ map (fun p => fst p ++ snd p) (combine C D))%list.
Definition transp2 (A : list (list xr)) : list (list xr) :=
  [map (fun r => nth 0 r NaN) A; map (fun r => nth 1 r NaN) A].

(** utide/confidence.py:300-353: Monte Carlo, vector.  [P] = (Puu, Pvv, Puv) *)
Definition mc2 (L : lib) (c : nat) (Xu Yu Xv Yv g theta : R) (Duu Dvv Duv : list (list xr))
    (truu trvv : xr) (P : option (xr * xr * xr)) (nrlzn : nat) : res ci :=
  do cov <- match P with
            | Some (Puu, Pvv, Puv) =>
                let s := xsum (map xabs (List.concat Duv)) in
                let Duv' := if xlt (Fin 0) s then rescale Puv Duv s else map (map (fun _ => Fin 0)) Duv in
                do A <- need_finite (block4 (rescale Puu Duu truu) Duv' (transp2 Duv') (rescale Pvv Dvv trvv));
                do r <- nearestSPD L 4 A; Ok (fst (fst r))
            | None => need_finite (block4 Duu Duv (transp2 Duv) Dvv)
            end;
  do mC <- l_mvn L c [Xu; Yu; Xv; Yv] cov nrlzn;
  do ep <- cs2cep_mat mC;
  match ep with
  | [] => Err IndexError
  | _ =>
      let th := cluster (set0 theta (map e_theta ep)) 360 in
      let gs := cluster (set0 g (map e_g ep)) 360 in
      Ok {| ci_maj := Fin (mad196 (map e_maj ep)); ci_min := Fin (mad196 (map e_min ep));
            ci_theta := Fin (mad196 th); ci_g := Fin (mad196 gs); ci_vc := [] |}
  end.

(** utide/confidence.py:269, 301, 308-311 *)
Definition covXuYu (H : C * C * C * C) : R :=
  let '(h00, h01, h10, h11) := H in (snd h00 - snd h01 + snd h10 - snd h11) / 2.
Definition covXvYv (G : C * C * C * C) : R :=
  let '(g00, g01, g10, g11) := G in (snd g00 - snd g01 + snd g10 - snd g11) / 2.
Definition covXuXv (H : C * C * C * C) : R :=
  let '(h00, h01, h10, h11) := H in (- snd h00 - snd h01 - snd h10 - snd h11) / 2.
Definition covXuYv (G : C * C * C * C) : R :=
  let '(g00, g01, g10, g11) := G in (fst g00 - fst g11) / 2.
Definition covYuXv (H : C * C * C * C) : R :=
  let '(h00, h01, h10, h11) := H in (- fst h00 + fst h11) / 2.
Definition covYuYv (G : C * C * C * C) : R :=
  let '(g00, g01, g10, g11) := G in (- snd g00 + snd g01 + snd g10 - snd g11) / 2.

(** noise levels of constituent c: None = white *)
Definition noise := option (list xr * option (list xr * list xr)).
Definition nth_x (l : list xr) (i : nat) : xr := nth i l NaN.
Definition n_uu (p : noise) (c : nat) : option xr := option_map (fun p => nth_x (fst p) c) p.
Definition n_vv (p : noise) (c : nat) : option xr :=
  option_map (fun p => match snd p with Some (v, _) => nth_x v c | None => NaN end) p.
Definition n_uv (p : noise) (c : nat) : option xr :=
  option_map (fun p => match snd p with Some (_, uv) => nth_x uv c | None => NaN end) p.

(** utide/confidence.py:222-353: constituent c.  Non-finite covariances ([gam] = None) make every
    variance NaN. *)
Definition conf_one (L : lib) (opt : optr) (gam : option (cmat * cmat)) (p : noise)
    (nc c : nat) (Xu Yu Xv Yv g theta : R) : res ci :=
  let fx (f : C * C * C * C -> R) (add : bool) : xr :=
    match gam with None => NaN | Some gm => Fin (f (block add gm nc c)) end in
  let vXu := fx (fun G => varXu G G) true in
  let vYu := fx (fun H => varYu H H) false in
  let vXv := fx (fun H => varXv H H) false in
  let vYv := fx (fun G => varYv G G) true in
  if o_linci opt then
    Ok (if o_twodim opt then linear2 Xu Yu Xv Yv vXu vYu vXv vYv (n_vv p c)
        else linear1 Xu Yu vXu vYu (n_uu p c))
  else
    let cuy := fx covXuYu false in
    let Duu := [[vXu; cuy]; [cuy; vYu]] in
    let truu := xadd vXu vYu in
    if o_twodim opt then
      let cvv := fx covXvYv true in
      let Dvv := [[vXv; cvv]; [cvv; vYv]] in
      let Duv := [[fx covXuXv false; fx covXuYv true]; [fx covYuXv false; fx covYuYv true]] in
      mc2 L c Xu Yu Xv Yv g theta Duu Dvv Duv truu (xadd vXv vYv)
          (match n_uu p c, n_vv p c, n_uv p c with
           | Some a, Some b, Some d => Some (a, b, d) | _, _, _ => None end) (o_nrlzn opt)
    else mc1 L c Xu Yu g Duu truu (n_uu p c) (o_nrlzn opt).

Fixpoint mapM_idx {A B} (f : nat -> A -> res B) (i : nat) (l : list A) : res (list B) :=
  match l with [] => Ok [] | x :: l' => do y <- f i x; do ys <- mapM_idx f (S i) l'; Ok (y :: ys) end.

(** utide/confidence.py:360-396: linearized intervals of the inferred constituents of one reference;
    [vc] is the diagonal of the covariance of the reference, X.. its coefficients *)
Definition conf_inferred (twodim : bool) (ref : refstruct) (Xu Yu Xv Yv : R) (vc : list xr) : list ci :=
  let q x := xmul (Fin (/ 4)) x in
  let varReap := if twodim then xadd (q (nth_x vc 0)) (q (nth_x vc 3)) else q (nth_x vc 0) in
  let varImap := if twodim then xadd (q (nth_x vc 1)) (q (nth_x vc 2)) else q (nth_x vc 1) in
  map (fun r =>
         let '(rp, rm) := r in
         let re2 := Fin (Rsqr (fst rp) + Rsqr (fst rm)) in
         let im2 := Fin (Rsqr (snd rp) + Rsqr (snd rm)) in
         let vX := xadd (xmul re2 varReap) (xmul im2 varImap) in
         let vY := xadd (xmul re2 varImap) (xmul im2 varReap) in
         if twodim then
           let '(sXu, sXv) := csig vX vY in
           let '(sYu, sYv) := csig vY vX in
           let '((s1, s1i), (s2, s2i)) := ut_linci Xu Yu Xv Yv sXu sYu sXv sYv in
           {| ci_maj := xmul z196 s1; ci_min := xmul z196 s1i; ci_theta := xmul z196 s2i;
              ci_g := xmul z196 s2; ci_vc := [] |}
         else
           let '((s1, _), (s2, _)) := ut_linci Xu Yu 0 0 (xsqrt vX) (xsqrt vY) (Fin 0) (Fin 0) in
           {| ci_maj := xmul z196 s1; ci_min := NaN; ci_theta := NaN; ci_g := xmul z196 s2; ci_vc := [] |})
      (combine (r_Rp ref) (r_Rm ref)).

(** coefficients of one constituent as they reach _confidence *)
Record cs := { x_Xu : R; x_Yu : R; x_Xv : R; x_Yv : R; x_g : R; x_theta : R }.
Definition cs0 : cs := {| x_Xu := 0; x_Yu := 0; x_Xv := 0; x_Yv := 0; x_g := 0; x_theta := 0 |}.

(** utide/confidence.py:148-400 (_confidence): the intervals of all constituents, in the order of
    coef.name.  [xs] are the nNR + nR fitted constituents; [e] = (Re e, Im e) is the weighted residual,
    None when some weight is not finite (the noise levels are then NaN). *)
Definition confidence (L : lib) (opt : optr) (s : sel) (tin t : list R)
    (e : option (list R * option (list R))) (elor : xr) (xraw xmod : list C) (W : list xr) (B : cmat) (nm : nat)
    (xs : list cs) : res (list ci) :=
  do p <- (if o_white opt then Ok None
           else match e with
                | Some (eu, ev) =>
                    do p <- band_averaged_psd_by_constit L tin t eu ev elor (s_frq s) (o_equi opt) (o_twodim opt);
                    Ok (Some p)
                | None => Ok (Some ([], None))
                end);
  do gam <- gammas L B nm W xraw xmod;
  let nc := length xs in
  do cis <- mapM_idx (fun c x => conf_one L opt gam p nc c (x_Xu x) (x_Yu x) (x_Xv x) (x_Yv x)
                                          (x_g x) (x_theta x)) 0 xs;
  match o_infer opt with
  | None => Ok cis
  | Some _ =>
      if o_linci opt then
        let refs := skipn (s_nNR s) (combine xs cis) in
        Ok (cis ++ List.concat (map (fun q => let '(ref, (x, cc)) := q in
                                         conf_inferred (o_twodim opt) ref (x_Xu x) (x_Yu x) (x_Xv x) (x_Yv x)
                                                       (ci_vc cc)) (combine (s_R s) refs)))%list
      else Err NotImplementedError
  end.
