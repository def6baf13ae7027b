(** Specification vocabulary for the sample clean-up of solve. *)
From Verif Require Import M_Base M_Time.
Open Scope R_scope.

(** mask of an unmasked array: all false *)
Definition full_mask (n : nat) (m : list bool) : list bool :=
  match m with [] => repeat false n | _ => m end.

(** the samples (time, value) of a scalar series that are valid: finite time, finite and unmasked value *)
Definition valid_scalar (ts us : list xr) (um : list bool) : list (R * R) :=
  flat_map (fun s => match s with
                     | (Fin t, (Fin u, false)) => [(t, u)]
                     | _ => []
                     end)
           (combine ts (combine us (full_mask (length us) um))).

(** the same for a vector series: (time, u, v) *)
Definition valid_vector (ts us : list xr) (um : list bool) (vs : list xr) (vm : list bool)
  : list (R * R * R) :=
  flat_map (fun s => match s with
                     | (Fin t, ((Fin u, false), (Fin v, false))) => [(t, u, v)]
                     | _ => []
                     end)
           (combine ts (combine (combine us (full_mask (length us) um))
                                (combine vs (full_mask (length vs) vm)))).

(** the valid times *)
Definition valid_times (ts : list xr) : list R :=
  flat_map (fun x => match x with Fin t => [t] | _ => [] end) ts.

(** steps between consecutive valid times *)
Fixpoint steps (l : list R) : list R :=
  match l with
  | a :: ((b :: _) as l') => (b - a) :: steps l'
  | _ => []
  end.

(** a 1-D array of n elements with an optional mask *)
Definition one_d {A} (n : nat) (d : list A) (m : list bool) : Prop :=
  length d = n /\ (m = [] \/ length m = n).

(** l' is l without its element number k *)
Definition drops {A} (k : nat) (l l' : list A) : Prop :=
  exists l1 x l2, l = (l1 ++ x :: l2)%list /\ l' = (l1 ++ l2)%list /\ length l1 = k.
(** the same for a mask, where [] means: no mask *)
Definition drops_mask (k : nat) (m m' : list bool) : Prop := (m = [] /\ m' = []) \/ drops k m m'.
(** t' is t without its element number k, which is invalid (NaT, NaN, infinite) *)
Inductive drop_time (k : nat) : tarray -> tarray -> Prop :=
| drop_NaT u l1 l2 : length l1 = k -> drop_time k (TDate u (l1 ++ None :: l2)) (TDate u (l1 ++ l2))
| drop_number x l1 l2 : length l1 = k -> (forall r, x <> Fin r) ->
    drop_time k (TNum (l1 ++ x :: l2)) (TNum (l1 ++ l2)).

Definition time_len (t : tarray) : nat :=
  match t with TDate _ l => length l | TNum l => length l | TUns l => length l | TStr l => length l end.

