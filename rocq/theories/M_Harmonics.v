(** utide/astronomy.py and utide/harmonics.py. *)
From Coq Require Import QArith Qreals.
From Verif Require Import M_Base M_Tables M_Const M_Slvinit.
Open Scope R_scope.

(** ** utide/astronomy.py *)

(** utide/astronomy.py:5-12 (_coefs) *)
Definition astro_coefs : list (list R) :=
  [[270434164 / 10^6; 131763965268 / 10^10; - (850 / 10^7); 39 / 10^9];
   [279696678 / 10^6; 9856473354 / 10^10; 2267 / 10^8; 0];
   [334329556 / 10^6; 1114040803 / 10^10; - (7739 / 10^7); - (26 / 10^8)];
   [- (259183275 / 10^6); 529539222 / 10^10; - (1557 / 10^7); - (50 / 10^9)];
   [281220844 / 10^6; 470684 / 10^10; 339 / 10^7; 70 / 10^9]].

(** utide/astronomy.py:62 *)
Definition daten : R := 693595 + / 2.

(** utide/astronomy.py:64-75: the six astronomical variables (tau, s, h, p, np, pp) at one time.
    (Arrays of times are processed column by column.) *)
Definition astro (jd : R) : list R :=
  let d := jd - daten in
  let D := d / 10000 in
  let args := [1; d; D * D; D * D * D] in
  let a := map (fun c => fmod1 (rdot c args / 360)) astro_coefs in
  (pymod jd 1 + nth 1 a 0 - nth 0 a 0) :: a.

(** utide/astronomy.py:77-84: their rates at one time *)
Definition ader (jd : R) : list R :=
  let d := jd - daten in
  let D := d / 10000 in
  let dargs := [0; 1; 2 / 10^4 * D; 3 / 10^4 * D * D] in
  let a := map (fun c => rdot c dargs / 360) astro_coefs in
  (1 + nth 1 a 0 - nth 0 a 0) :: a.

(** ** utide/harmonics.py *)

(** utide/harmonics.py:15-20; rows of the shallow table, 0-based start *)
Definition ishallow : list nat := map pred (somes const_ishallow).
Definition nshallow : list nat := somes const_nshallow.
Definition kshallow : list nat :=
  map fst (filter (fun p => is_good (snd p)) (enumerate const_ishallow)).
Definition shallow_loop : list (nat * nat * nat) :=
  combine (combine ishallow nshallow) kshallow.

Definition zrow (l : list Z) : list R := map IZR l.

(** [shallow.iname[ik] - 1] and [shallow.coef[ik]] *)
Definition sh_j (ik : nat) : nat := pred (nth ik shallow_iname 0%nat).
Definition sh_coef (ik : nat) : R := Q2R (nth ik shallow_coef 0%Q).

(** utide/harmonics.py:23-31 (linearized_freqs) *)
Definition linearized_freqs (tref : R) : list R :=
  let a := ader tref in
  let freq := map (fun p => match snd p with
                            | Some dood => rdot (zrow dood) a / 24   (* not shallow *)
                            | None => fst p                          (* const.freq, overwritten *)
                            end) (combine freqR const_doodson) in
  fold_left (fun freq '(i0, n, k) =>
               list_set freq k (rsum (map (fun ik => nth (sh_j ik) freq 0 * sh_coef ik) (seq i0 n))))
            shallow_loop freq.

(** partial reals: None = not finite *)
Definition oadd (a b : option R) : option R :=
  match a, b with Some x, Some y => Some (x + y) | _, _ => None end.
Definition omul (a b : option R) : option R :=
  match a, b with Some x, Some y => Some (x * y) | _, _ => None end.
Definition osum (l : list (option R)) : option R := fold_right oadd (Some 0) l.
Definition oprod (l : list (option R)) : option R := fold_right omul (Some 1) l.

(** [x ** c] for x >= 0 and c > 0 *)
Definition rpow (x c : R) : R := if Req_EM_T x 0 then 0 else Rpower x c.

(** sign(lat)*5 inside 5 degrees; utide/harmonics.py:121-122 *)
Definition rsign (x : R) : R := if Rlt_dec 0 x then 1 else if Rlt_dec x 0 then -1 else 0.
Definition eff_lat (lat : R) : R := if Rlt_dec (Rabs lat) 5 then rsign lat * 5 else lat.

(** utide/harmonics.py:124-131: satellite amplitude ratios with latitude factors *)
Definition slat (lat : R) : R := sin (eff_lat lat * (PI / 180)).
Definition latfac (lat : R) (il : nat) : xr :=
  match il with
  | 1%nat => xdiv (Fin (36309 / 10^5 * (1 - 5 * (slat lat * slat lat)))) (Fin (slat lat))
  | 2%nat => Fin (259808 / 10^5 * slat lat)
  | _ => Fin 1
  end.
Definition sat_rr (lat : R) : list xr :=
  map (fun p => xmul (Fin (Q2R (fst p))) (latfac lat (snd p))) (combine sat_amprat sat_ilatfac).

(** utide/harmonics.py:133-136: complex satellite terms at one time *)
Definition sat_uu (jd : R) : list R :=
  let a := firstn 3 (skipn 3 (astro jd)) in
  map (fun p => fmod1 (rdot (zrow (fst p)) a + Q2R (snd p))) (combine sat_deldood sat_phcorr).
Definition sat_mat (jd lat : R) : list (option C) :=
  map (fun p => match fst p with
                | Fin r => Some (Cmult (RtoC r) (cis (2 * PI * snd p)))
                | _ => None
                end) (combine (sat_rr lat) (sat_uu jd)).

Definition ocadd (a b : option C) : option C :=
  match a, b with Some x, Some y => Some (Cplus x y) | _, _ => None end.
Definition ocsum (l : list (option C)) : option C := fold_right ocadd (Some (RtoC 0)) l.

Definition nconst : nat := length const_freq.

(** utide/harmonics.py:138-144: 1 + sum of the satellite terms of each constituent (no satellites:
    the sum is empty and F keeps its initial value 1) *)
Definition sat_F (jd lat : R) : list (option C) :=
  map (fun ii => ocadd (Some (RtoC 1))
                   (ocsum (map snd (filter (fun p => Nat.eqb (pred (fst p)) ii)
                                           (combine sat_iconst (sat_mat jd lat))))))
      (seq 0 nconst).

(** utide/harmonics.py:146-155: amplitude factors and phase corrections at one time *)
Definition F_col (jd lat : R) : list (option R) :=
  fold_left (fun F '(i0, n, k) =>
               list_set F k (oprod (map (fun ik => option_map (fun f => rpow f (Rabs (sh_coef ik)))
                                                              (nth (sh_j ik) F None)) (seq i0 n))))
            shallow_loop (map (option_map Cmod) (sat_F jd lat)).
Definition U_col (jd lat : R) : list (option R) :=
  fold_left (fun U '(i0, n, k) =>
               list_set U k (osum (map (fun ik => omul (nth (sh_j ik) U None) (Some (sh_coef ik)))
                                       (seq i0 n))))
            shallow_loop (map (option_map (fun z => angle z / (2 * PI))) (sat_F jd lat)).

(** utide/harmonics.py:174-183: astronomical argument at one time *)
Definition V_col (jd : R) : list (option R) :=
  let a := astro jd in
  fold_left (fun V '(i0, n, k) =>
               list_set V k (osum (map (fun ik => omul (nth (sh_j ik) V None) (Some (sh_coef ik)))
                                       (seq i0 n))))
            shallow_loop
            (map (fun p => match p with
                           | (Some dood, Some semi) => Some (fmod1 (rdot (zrow dood) a + Q2R semi))
                           | _ => None
                           end) (combine const_doodson const_semi)).

(** [M[lind, :].T] row of one time *)
Definition pick (lind : list nat) (col : list (option R)) : list (option R) :=
  map (fun i => nth i col None) lind.

(** numpy broadcasting of a (1, nc) array against nt rows *)
Definition bcast {A} (nt : nat) (rows : list A) : list A :=
  match rows with [r] => repeat r nt | _ => rows end.

Record ngflgs := {
  NodsatLint : bool;
  NodsatNone : bool;
  GwchLint : bool;
  GwchNone : bool
}.

Definition ones (nt nc : nat) (x : R) : list (list (option R)) := repeat (repeat (Some x) nc) nt.

(** [24 * (t - tref) * freq[lind]] at one time; utide/harmonics.py:163, 189 *)
Definition lin_arg (t tref : R) (frq : list R) : list R := map (fun f => 24 * (t - tref) * f) frq.
Definition sel_freq (tref : R) (lind : list nat) : list R :=
  map (fun i => nth i (linearized_freqs tref) 0) lind.

(** utide/harmonics.py:83-191 (FUV): lists of rows, one row per time (or one row, broadcast later) *)
Definition FUV (t : list R) (tref : R) (lind : list nat) (lat : R) (g : ngflgs)
  : list (list (option R)) * list (list (option R)) * list (list (option R)) :=
  let nt := length t in
  let nc := length lind in
  let '(F, U) :=
    if NodsatNone g then (ones nt nc 1, ones nt nc 0)
    else
      let tt := if NodsatLint g then [tref] else t in
      (map (fun x => pick lind (F_col x lat)) tt, map (fun x => pick lind (U_col x lat)) tt) in
  let V :=
    if GwchNone g then map (fun x => map Some (lin_arg x tref (sel_freq tref lind))) t
    else
      let tt := if GwchLint g then [tref] else t in
      let V := map (fun x => pick lind (V_col x)) tt in
      if GwchLint g then
        map (fun p => map (fun q => oadd (fst q) (Some (snd q)))
                          (combine (fst p) (lin_arg (snd p) tref (sel_freq tref lind))))
            (combine (bcast nt V) t)
      else V in
  (F, U, V).

(** [F * exp(1j * (U + V) * 2 * pi)] *)
Definition E_entry (f u v : option R) : option C :=
  match f, oadd u v with
  | Some f, Some w => Some (Cmult (RtoC f) (cis (w * (2 * PI))))
  | _, _ => None
  end.
Fixpoint E_row (f u v : list (option R)) : list (option C) :=
  match f, u, v with
  | a :: f', b :: u', c :: v' => E_entry a b c :: E_row f' u' v'
  | _, _, _ => []
  end.
Fixpoint E_rows (f u v : list (list (option R))) : list (list (option C)) :=
  match f, u, v with
  | a :: f', b :: u', c :: v' => E_row a b c :: E_rows f' u' v'
  | _, _, _ => []
  end.

(** utide/harmonics.py:34-80 (ut_E); prefilt is unused *)
Definition ut_E (t : list R) (tref : R) (frq : list R) (lind : list nat) (lat : R) (g : ngflgs)
  : list (list (option C)) :=
  let nt := length t in
  let nc := length frq in
  let '(F, U, V) :=
    if NodsatNone g && GwchNone g then
      (ones nt nc 1, ones nt nc 0, map (fun x => map Some (lin_arg x tref frq)) t)
    else FUV t tref lind lat g in
  E_rows (bcast nt F) (bcast nt U) (bcast nt V).
