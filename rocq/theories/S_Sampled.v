(** Specification of Monte-Carlo intervals: draws from a sampler and the spread of their ellipses. *)
From Verif Require Import M_Base M_Lib M_Ellipse S_Ellipse S_Conf.
Open Scope R_scope.

(** [n] draws of cosine and sine coefficient around (X, Y) with covariance [cov]; [a] and [b] are the half-widths of
    amplitude and phase, the phases of the draws being read on the branch around the fitted phase [g] *)
Definition scalar_draws (L : lib) (X Y : R) (cov : rmat) (n : nat) (g : R) (a b : xr) : Prop :=
  exists k draws gs x y,
    l_mvn L k [X; Y] cov n = Ok (map (fun p => [fst p; snd p]) draws) /\ length draws = n /\
    spread (map (fun p => A_of (fst p) (snd p)) draws) x /\ a = Fin x /\
    on_branch 360 g (map (fun p => g1_of (fst p) (snd p)) draws) gs /\ spread gs y /\ b = Fin y.

(** the same for both components: cosine and sine coefficients of u, then of v; half-widths of the semi-axes, the
    orientation and the phase *)
Definition vector_draws (L : lib) (Xu Yu Xv Yv : R) (cov : rmat) (n : nat) (theta g : R) (maj min th ph : xr) : Prop :=
  exists k (draws : list (R * R * R * R)) gs ths x1 x2 x3 x4,
    l_mvn L k [Xu; Yu; Xv; Yv] cov n = Ok (map (fun p => let '(a, b, d, f) := p in [a; b; d; f]) draws) /\ length draws = n /\
    spread (map (fun p => let '(a, b, d, f) := p in maj_of a b d f) draws) x1 /\ maj = Fin x1 /\
    spread (map (fun p => let '(a, b, d, f) := p in min_of a b d f) draws) x2 /\ min = Fin x2 /\
    on_branch 360 theta (map (fun p => let '(a, b, d, f) := p in theta_of a b d f) draws) ths /\ spread ths x3 /\ th = Fin x3 /\
    on_branch 360 g (map (fun p => let '(a, b, d, f) := p in g_of a b d f) draws) gs /\ spread gs x4 /\ ph = Fin x4.
