(** Specification vocabulary for the lognormal three-moment model (C25-C27). *)
From Coq Require Import ZArith List Reals.
From Verif Require Import Num Defs State Coag Nucl SootModel Calls XR SpecChem SpecCoag SpecValid SpecRates SpecGas SpecPah SpecPsd SpecSect SpecQmom.
Import ListNotations.
Local Open Scope R_scope.

(** moment of order [r] of a lognormal distribution of [n] particles: the logarithm
    of the mass has mean [mu] and variance [v] *)
Definition lognormalMoment (n mu v r : R) : R := n * exp (mu * r + v * r ^ 2 / 2).
(** three-moment closure; 0 as soon as one moment vanishes *)
Definition closure (M0 M1 M2 r : R) : R :=
  if Rlt_dec 0 M0 then if Rlt_dec 0 M1 then if Rlt_dec 0 M2 then
    Rpower M0 (1 + 1 / 2 * r * (r - 3)) * Rpower M1 (r * (2 - r)) * Rpower M2 (1 / 2 * r * (r - 1))
  else 0 else 0 else 0.
(** moments of order z/6, the given ones for the orders 0 and 1 *)
Definition sixth (z : Z) : R := IZR z / 6.
Definition mom (M0 M1 M2 : R) (z : Z) : R :=
  if Z.eqb z 0 then M0 else if Z.eqb z 6 then M1 else closure M0 M1 M2 (sixth z).

(** *** kernels as sums of terms c a^(p/6) b^(q/6) *)
Definition kernelOf (l : list (R * Z * Z)) (a b : R) : R :=
  fold_right (fun t acc => let '(c, p, q) := t in c * Rpower a (sixth p) * Rpower b (sixth q) + acc) 0 l.
(** the same sum with the powers replaced by moments *)
Definition meanOf (l : list (R * Z * Z)) (f g : Z -> R) : R :=
  fold_right (fun t acc => let '(c, p, q) := t in c * f p * g q + acc) 0 l.
(** free-molecular constant, continuum constants *)
Definition kFM (f : R) (g : gas) : R :=
  enhancement * f * sqrt (piC * boltzmann * gT g / 2) * Rpower (6 / (piC * sootDensity)) (2 / 3).
Definition kC (g : gas) : R := 2 * boltzmann * gT g / (3 * gMu g).
Definition kSlip (g : gas) : R := 2 * (1657 / 1000) * meanFreePath (gP g) (gRho g) (gMu g) * Rpower (piC * sootDensity / 6) (1 / 3).
(** the free-molecular kernel with sqrt(1/a+1/b) replaced by 0.8536 (a^-1/2 + b^-1/2) *)
Definition bFM : R := 8536 / 10000.
Definition tm (c : R) (p q : Z) : R * Z * Z := (c, p, q).
Definition fmTerms (f : R) (g : gas) : list (R * Z * Z) :=
  let K := kFM f g * bFM in
  [tm K 1 0; tm (2 * K) (-1) 2; tm K (-3) 4; tm (2 * K) 2 (-1); tm K 4 (-3); tm K 0 1].
(** the continuum kernel *)
Definition coTerms (g : gas) : list (R * Z * Z) :=
  let K := kC g in let S := kC g * kSlip g in
  [tm (2 * K) 0 0; tm K 2 (-2); tm K (-2) 2; tm S (-2) 0; tm S 0 (-2); tm S (-4) 2; tm S 2 (-4)].

(** loss of particles and gain of the second moment by coagulation for a kernel *)
Definition lossOf (l : list (R * Z * Z)) (M : Z -> R) : R := 1 / 2 * meanOf l M M.
Definition gainOf (l : list (R * Z * Z)) (M : Z -> R) : R := meanOf l (fun p => M (p + 6)%Z) (fun q => M (q + 6)%Z).
Definition harm (a b : R) : R := a * b / (a + b).
(** coagulation sources of M0 and M2.  HM: the harmonic mean of the gains, but no
    loss of particles *)
Definition lognC0 (k : mechs) (g : gas) (M : Z -> R) : R :=
  match mC k with
  | C_FM => - lossOf (fmTerms (mF k) g) M
  | C_CONTINUUM => - lossOf (coTerms g) M
  | _ => 0
  end.
Definition lognC2 (k : mechs) (g : gas) (M : Z -> R) : R :=
  match mC k with
  | C_FM => gainOf (fmTerms (mF k) g) M
  | C_CONTINUUM => gainOf (coTerms g) M
  | C_HM => let a := gainOf (fmTerms (mF k) g) M in let b := gainOf (coTerms g) M in if Rlt_dec 0 (a + b) then harm a b else 0
  | _ => 0
  end.
(** collisions of one particle of mass [x] with the distribution shifted by [j] orders *)
Definition hitsOf (l : list (R * Z * Z)) (x : R) (M : Z -> R) (j : Z) : R :=
  meanOf l (fun p => Rpower x (sixth p)) (fun q => M (q + 6 * j)%Z).
Definition lognHits (k : mechs) (g : gas) (x : R) (M : Z -> R) (j : Z) : R :=
  harm (hitsOf (fmTerms (mF k) g) x M j) (hitsOf (coTerms g) x M j).
(** the three sources *)
Definition lognSources (k : mechs) (g : gas) (M0 M1 M2 : R) (o : nucOut) : list R :=
  let M := mom M0 M1 M2 in
  let kk := kgrow k g M0 M1 - koxid k g M0 M1 in
  let cond j := if isP k then oMass o * oConc o * lognHits k g (oMass o) M j else 0 in
  [oJ o + lognC0 k g M;
   oN1 o + cond 0%Z + kk * areaCoef * M 4%Z;
   oN1 o * nucMass (oGas o) + 2 * cond 1%Z + 2 * kk * areaCoef * M 10%Z + lognC2 k g M].

(** the coagulation mechanisms the constructors accept *)
Definition momentCoag (k : mechs) : Prop := mC k = C_FM \/ mC k = C_CONTINUUM \/ mC k = C_HM.
(** a valid lognormal model and state, as made by the constructors and setState *)
Definition readyLogn (m : model (N:=XR)) (s : state (N:=XR)) (g : gas) (k : mechs) (M0 M1 M2 : R) : Prop :=
  sm_psd m = P_LOGN /\ hasAll m k /\ okAll k /\ momentCoag k /\ valid s g [M0; M1; M2] /\ regular k g M0 M1.

(** moments of a finite population: [w] particles of mass [x] *)
Definition popMoment (w x : list R) (z : Z) : R := Sum (length w) (fun i => el w i * Rpower (el x i) (sixth z)).
(** some entry is NaN *)
Definition poisoned (l : list xr) : Prop := In NaN l.
