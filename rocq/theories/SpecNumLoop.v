(** Specification vocabulary for the number of particles under nucleation and coagulation in time (C99). *)
From Coq Require Import Reals.
From Verif Require Import Defs SpecChem SpecCoag SpecValid.
Local Open Scope R_scope.

(** a kernel of which no collision of equal particles above the smallest colliding mass is slower *)
Definition slowestCollision (co : coagulationMech) (g : gas) : R :=
  let free := betaFM 1 (gT g) massCutoff massCutoff in
  let cont := 8 * boltzmann * gT g / (3 * gMu g) in
  match co with
  | C_FM => free
  | C_CONTINUUM => cont
  | C_HM | C_FUCHS => / (/ free + / cont)
  | _ => 0
  end.
(** the number at which [J] nuclei per time replace at most the particles lost with the kernel [B], and those of one more step *)
Definition numberCap (J B dt : R) : R := sqrt (2 * J / B) + dt * J.
(** the kernel of the continuum regime for the smallest particles that collide, where it is fastest between equal particles *)
Definition fastestContinuum (g : gas) : R := betaC (slipLinear (gP g) (gRho g) (gMu g)) (gT g) (gMu g) massCutoff massCutoff.
(** steps that do not overshoot from the number [N0] *)
Definition shortStep (J B K dt N0 : R) : Prop := dt * K * (sqrt (2 * J / B) + Rmax N0 (numberCap J B dt)) <= 2.
(** stopping distance of a particle of mass [m] over its diameter *)
Definition stoppingRatio (g : gas) (m : R) : R := 8 * diffusivity (gT g) (gP g) (gRho g) (gMu g) m / (piC * thermalSpeed (gT g) m) / diam m.
(** a kernel of which no collision of equal particles above the smallest colliding mass is faster *)
Definition fastestCollision (co : coagulationMech) (g : gas) : R :=
  let r := stoppingRatio g massCutoff in match co with C_FUCHS => fastestContinuum g * (1 + 2 * r + r ^ 2) | _ => fastestContinuum g end.
