(** Binary64 rounding of times: utide/_time_conversion.py and the even-spacing test of utide/_solve.py.
    As in M_Float.v every operation rounds to nearest, ties to even; overflow is not modelled. *)
From Coq Require Import Permutation.
From Flocq Require Import Core.
From Verif Require Import M_Base M_Time M_Float.
Open Scope R_scope.

(** a rounded result *)
Definition flx (x : xr) : xr := match x with Fin r => Fin (fl r) | _ => x end.

(** utide/_time_conversion.py:40: [(date - epoch).astype(float) / _MS_PER_DAY] *)
Definition datenum64 (m : option Z) : xr :=
  match m with Some z => Fin (fl (fl (IZR z) / IZR MS_PER_DAY)) | None => NaN end.
(** utide/_time_conversion.py:44-53 *)
Definition gregorian64 (parse : string -> option Z) (t : tarray) : res (list xr) :=
  do ms <- array_to_ms parse t;
  Ok (map (fun m => flx (xadd (datenum64 m) (Fin (IZR DAY_TO_GREGORIAN_EPOCH)))) ms).
(** utide/_time_conversion.py:56-85 (_normalize_time) *)
Definition normalize64 (parse : string -> option Z) (t : tarray) (epoch : pyval) : res (list xr) :=
  if is_none epoch then gregorian64 parse t
  else match t with
  | TNum l =>
      if eq_str epoch "python" then Ok l
      else if eq_str epoch "matlab" then Ok (map (fun x => flx (xsub x (Fin 366))) l)
      else
        do ea <- epoch_array epoch;
        do ofs <- gregorian64 parse ea;
        Ok (map (fun x => flx (xadd x (hd NaN ofs))) l)
  | _ => Err ValueError
  end.

(** [np.diff]; utide/_solve.py:517 *)
Fixpoint diff64 (l : list R) : list R :=
  match l with
  | a :: (b :: _) as l' => fl (b - a) :: diff64 l'
  | _ => []
  end.
(** [np.unique]: the distinct values (their order does not matter below) *)
Definition unique_of (l u : list R) : Prop := NoDup u /\ forall x, In x u <-> In x l.
(** [np.sum]: the additions may be done in any order (numpy adds pairwise, in blocks) *)
Inductive sum64 : list R -> R -> Prop :=
| sum_one x : sum64 [x] x
| sum_add l l1 l2 a b : sum64 l1 a -> sum64 l2 b -> Permutation l (l1 ++ l2) -> sum64 l (fl (a + b)).
(** [np.var]: mean of the squared deviations from the mean *)
Definition variance64 (l : list R) (v : R) : Prop :=
  exists s q, sum64 l s /\
    sum64 (map (fun x => let d := fl (x - fl (s / INR (length l))) in fl (d * d)) l) q /\
    v = fl (q / INR (length l)).
(** utide/_solve.py:516-517: the value that is compared with eps = 2^-52 *)
Definition spacing64 (tin : list R) (v : R) : Prop := exists u, unique_of (diff64 tin) u /\ variance64 u v.
Definition eps64 : R := bpow radix2 (-52).
