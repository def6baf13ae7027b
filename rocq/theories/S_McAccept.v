(** Specification vocabulary for the analyses with Monte-Carlo intervals that give a result. *)
From Verif Require Import M_Base M_Lib M_Options M_Diag M_Solve S_Dict S_Options S_Order S_Conf.
Open Scope R_scope.
Open Scope string_scope.

(** numpy.random.multivariate_normal draws from every square covariance of the size of the mean *)
Definition mvn_returns (L : lib) : Prop := forall c mean cov n, square (length mean) cov -> exists smp, l_mvn L c mean cov n = Ok smp.
(** numpy.linalg.svd gives a result for every symmetric matrix of finite numbers, eigvals for every square one *)
Definition svd_returns (L : lib) : Prop := forall n M, square (S n) M -> symmetric (S n) M -> exists q, l_svd L M = Ok q.
Definition eigvals_returns (L : lib) : Prop := forall n M, square (S n) M -> exists q, l_eigvals L M = Ok q.

(** the same options but for the kind of intervals and the order of the constituents *)
Definition options_but_kind (opts opts' : dict pyval) : Prop :=
  forall k x, k <> "conf_int" -> k <> "order_constit" -> (setting opts k x <-> setting opts' k x).

(** the half-width of the amplitude or major axis of a constituent is a number *)
Definition measured (r : crow) : Prop := exists x, w_A_ci r = Some (Some (Fin x)) \/ w_Lsmaj_ci r = Some (Some (Fin x)).
