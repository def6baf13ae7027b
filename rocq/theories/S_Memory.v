(** Specification vocabulary for arrays that share memory. *)
From Coq Require Import QArith Qreals.
From Verif Require Import M_Base M_Tables M_Time M_Slvinit M_Recon M_Memory.
Open Scope R_scope.

(** the package's table of satellite amplitudes is as loaded from the file *)
Definition table_intact (m : mem) : Prop := (length sat_amprat <= free m)%nat /\ look m table = map (fun q => Fin (Q2R q)) sat_amprat.

(** arrays that exist *)
Definition exists_in (m : mem) (a : arr) : Prop := Forall (fun i => (i < free m)%nat) a.
Definition time_exists (m : mem) (t : targ) : Prop := match t with InPlace a => exists_in m a | Other _ => True end.

(** every array that existed before shows afterwards what it showed *)
Definition nothing_changed (m m' : mem) : Prop := (free m <= free m')%nat /\ forall a, exists_in m a -> look m' a = look m a.

(** an array made between m and m': none of its numbers belongs to an array that existed before, none occurs twice in it *)
Definition made_between (m m' : mem) (a : arr) : Prop := NoDup a /\ Forall (fun i => (free m <= i < free m')%nat) a.

(** no number in common *)
Definition apart (a b : arr) : Prop := forall i, In i a -> ~ In i b.

(** the contents of what reconstruct returned *)
Definition contents (m : mem) (o : rec_refs) : series :=
  match rr_series o with RScalar h => Scalar (look m h) | RVector u v => Vector (look m u) (look m v) end.
Definition arrays_of (o : rec_refs) : list arr := match rr_series o with RScalar h => [h] | RVector u v => [u; v] end.

(** the caller does not write to the package's table: the steps of a session that write, write elsewhere *)
Definition respectful (s : step) : Prop := match s with Writing a _ => apart a table | _ => True end.
