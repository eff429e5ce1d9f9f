(** Property C68: the burner-flame drivers. *)
From Coq Require Import ZArith List Bool Reals.
From Verif Require Import Num Defs State Coag Nucl Growth Oxid Tar SootModel Qmom Calls Interp Flame XR SpecFlame SpecFinite FlameMain FlameFinal FlameWrong FlameProofs.
Import ListNotations.
Local Open Scope R_scope.

(** every run over a physical flame returns after the given number of steps; each step is the
    midpoint rule for d(M/rho)/dz = source/(rho v), with the sources that a new state and an unused
    model give, but with the mass fraction of H in place of that of O2 in the middle of the step *)
Theorem C68_trajectory : forall f p n m0 eig nsteps,
  physicalFlow f -> flameModel (N:=XR) p n = Ok m0 -> flameSize p n -> (1 <= nsteps)%nat ->
  exists m s Mt,
    flame eig p n nsteps (columnsOf f) = Ok (mkLoop (N:=XR) (None, m, s) (Fin (top f)) (Mt nsteps) (rows f nsteps nsteps Mt)) /\
    Mt 0%nat = zeros (N:=XR) n /\ (forall i, (i <= nsteps)%nat -> length (Mt i) = n) /\
    (forall i, (i < nsteps)%nat -> midpointWith (driverGas f) eig m0 n f (stepLen f nsteps) (height f nsteps i) (Mt i) (Mt (S i))) /\
    (p <> P_MOMIC -> forall i, (i <= nsteps)%nat -> allFinite (Mt i)).
Proof. exact run_all. Qed.
Print Assumptions C68_trajectory.
Theorem C68_model_built : forall p n, flameSize p n -> exists m, flameModel (N:=XR) p n = Ok m.
Proof. exact flame_built. Qed.
Print Assumptions C68_model_built.

(** if the columns of O2 and H agree this is the midpoint rule ... *)
Theorem C68_midpoint : forall f eig m n dz z M M', w_y f H_ = w_y f O2 ->
  (midpointWith (driverGas f) eig m n f dz z M M' <-> midpoint eig m n f dz z M M').
Proof. exact same_columns_iff. Qed.
Print Assumptions C68_midpoint.
(** ... in general it is not *)
Theorem C68_midpoint_refuted : exists f m0, physicalFlow f /\ flameModel (N:=XR) P_QMOM 2 = Ok m0 /\ forall eig, exists a,
  flame eig P_QMOM 2 1 (columnsOf f) = Ok a /\
  (exists M, midpoint eig m0 2 f (stepLen f 1) (bottom f) (zeros (N:=XR) 2) M) /\
  forall M, midpoint eig m0 2 f (stepLen f 1) (bottom f) (zeros (N:=XR) 2) M -> pr_M a <> M.
Proof. exact not_midpoint. Qed.
Print Assumptions C68_midpoint_refuted.

(** complete tables of any values: no undefined behaviour, except perhaps the SECT conversion *)
Theorem C68_safe : forall f p n nsteps eig, wellFormed f -> p <> P_HMOM -> (p = P_MOMIC -> (n <= 7)%nat) ->
  match flame (N:=XR) eig p n nsteps (columnsOf f) with UB u => u = BadCast /\ p = P_SECT | _ => True end.
Proof. exact never_ub. Qed.
Print Assumptions C68_safe.
(** the HMOM driver and the tar driver read past the end of a vector in their first evaluation *)
Theorem C68_hmom : forall f n nsteps eig, physicalFlow f -> (4 <= n <= 9)%nat -> (1 <= nsteps)%nat ->
  flame (N:=XR) eig P_HMOM n nsteps (columnsOf f) = UB OutOfBounds.
Proof. exact hmom_flame. Qed.
Print Assumptions C68_hmom.
Theorem C68_momic8 : forall f nsteps eig, physicalFlow f -> (1 <= nsteps)%nat -> flame (N:=XR) eig P_MOMIC 8 nsteps (columnsOf f) = UB OutOfBounds.
Proof. exact momic8_flame. Qed.
Print Assumptions C68_momic8.
Theorem C68_tar : forall f eig, physicalFlow f -> tarFlameStart (N:=XR) eig (columnsOf f) = UB OutOfBounds.
Proof. exact tar_flame. Qed.
Print Assumptions C68_tar.

(** the drivers' own configurations meet the hypotheses *)
Example C68_case : physicalFlow evenFlow /\ wellFormed evenFlow /\
  (exists m, flameModel (N:=XR) P_QMOM 6 = Ok m) /\ flameSize P_QMOM 6 /\
  (exists m, flameModel (N:=XR) P_MOMIC 7 = Ok m) /\ flameSize P_MOMIC 7 /\
  physicalFlow sameFlow /\ w_y sameFlow H_ = w_y sameFlow O2 /\ bottom evenFlow = 0 /\ top evenFlow = 1.
Proof. exact flame_cases. Qed.
