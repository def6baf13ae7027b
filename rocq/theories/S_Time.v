(** Specification vocabulary for dates: the proleptic Gregorian calendar, by stepping from one day to
    the next.  Nothing here refers to the model. *)
From Coq Require Import ZArith Bool Reals String.
From Verif Require Import M_Base M_Time.


Open Scope Z_scope.

(** year, month (1-12), day (1-31); year 0 exists (astronomical numbering) *)
Record date := Date { yr : Z; mo : Z; dy : Z }.

Definition leap (y : Z) : bool :=
  ((y mod 4 =? 0) && (negb (y mod 100 =? 0) || (y mod 400 =? 0)))%bool.

Definition month_length (y m : Z) : Z :=
  if m =? 2 then (if leap y then 29 else 28)
  else if ((m =? 4) || (m =? 6) || (m =? 9) || (m =? 11))%bool then 30 else 31.

Definition valid_date (d : date) : Prop :=
  1 <= mo d <= 12 /\ 1 <= dy d <= month_length (yr d) (mo d).

Definition next_day (d : date) : date :=
  if dy d <? month_length (yr d) (mo d) then Date (yr d) (mo d) (dy d + 1)
  else if mo d <? 12 then Date (yr d) (mo d + 1) 1
  else Date (yr d + 1) 1 1.

(** [days_later a k b]: b is k days after a (before, when k is negative). *)
Inductive days_later : date -> Z -> date -> Prop :=
| dl_zero a : days_later a 0 a
| dl_next a k b : days_later a k b -> days_later a (k + 1) (next_day b)
| dl_prev a k b c : days_later a k b -> valid_date c -> next_day c = b -> days_later a (k - 1) c.

(** day number as in Python's date.toordinal: 1 on 1 January of year 1 *)
Definition day_number (d : date) (n : Z) : Prop := days_later (Date 1 1 1) (n - 1) d.
(** the calendar date that contains k days after the Unix epoch *)
Definition unix_day (k : Z) (d : date) : Prop := days_later (Date 1970 1 1) k d.

(** number of time units in a day *)
Definition per_day (u : tunit) : Z :=
  match u with
  | UDay => 1 | UHour => 24 | UMin => 1440 | USec => 86400 | UMs => 86400000
  | UUs => 86400000000 | UNs => 86400000000000
  end.

(** [day_value u n x]: x is the day number of the calendar date of the instant n units [u] after
    1970-01-01T00:00, plus the elapsed part of that day in whole milliseconds. *)
Definition day_value (u : tunit) (n : Z) (x : R) : Prop :=
  exists (d : date) (N ms : Z), unix_day (n / per_day u) d /\ day_number d N /\ 0 <= ms < 86400000 /\
    ms * per_day u <= (n mod per_day u) * 86400000 < (ms + 1) * per_day u /\
    x = (IZR N + IZR ms / 86400000)%R.

(** an epoch argument that denotes a date, and its day number *)
Inductive epoch_value (parse : string -> option Z) : pyval -> R -> Prop :=
| ev_date u n x : day_value u n x -> epoch_value parse (PDate u n) x
| ev_string s n x : s <> "python"%string -> s <> "matlab"%string -> parse s = Some n ->
    day_value UMs n x -> epoch_value parse (PStr s) x.

(** [denotes parse t e xs]: the time argument t with epoch argument e stands for the instants whose
    day numbers are xs (NaN where there is none). *)
Inductive denotes (parse : string -> option Z) : tarray -> pyval -> list xr -> Prop :=
| den_python xs : denotes parse (TNum xs) (PStr "python") xs
| den_matlab xs : denotes parse (TNum (map (fun x => xadd x (Fin 366)) xs)) (PStr "matlab") xs
| den_epoch e off xs : epoch_value parse e off ->
    denotes parse (TNum (map (fun x => xsub x (Fin off)) xs)) e xs
| den_dates u ds xs :
    Forall2 (fun d x => match d with None => x = NaN | Some n => exists r, x = Fin r /\ day_value u n r end) ds xs ->
    denotes parse (TDate u ds) PNone xs.
