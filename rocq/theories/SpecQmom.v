(** Specification vocabulary for the quadrature method of moments (C33-C37), over
    real numbers.  Nodes are given by lists of weights [w] and abscissas [x]. *)
From Coq Require Import ZArith List Reals.
From Verif Require Import Num Defs State Coag Nucl SootModel Qmom Calls XR SpecChem SpecCoag SpecValid SpecRates SpecPah SpecPsd SpecSect.
Import ListNotations.
Local Open Scope R_scope.

(** moment of order [r] of the nodes *)
Definition nodeMoment (w x : list R) (r : nat) : R := Sum (length w) (fun i => el w i * el x i ^ r).
(** every node has a positive weight and a positive abscissa *)
Fixpoint allPos (w x : list R) : bool :=
  match w, x with
  | a :: w', b :: x' => (if Rlt_dec 0 a then true else false) && (if Rlt_dec 0 b then true else false) && allPos w' x'
  | _, _ => true
  end%bool.
(** moment of real order, zero as soon as one node vanishes *)
Definition fracMoment (w x : list R) (r : R) : R :=
  if allPos w x then Sum (length w) (fun i => el w i * Rpower (el x i) r) else 0.
(** a sphere of mass m has surface areaCoef m^(2/3) *)
Definition areaCoef : R := piC * Rpower (6 / (piC * sootDensity)) (2 / 3).

(** rate at which a dimer hits the nodes *)
Definition nodeHits (k : mechs) (g : gas) (w x : list R) : R :=
  Sum (length w) (fun i => kernel k g (dimerMass g) (el x i) * el w i).
(** Smoluchowski's equation for the moments *)
Definition smoluchowski (k : mechs) (g : gas) (w x : list R) (r : nat) : R :=
  1 / 2 * Sum (length w) (fun i => Sum (length w) (fun j =>
    kernel k g (el x i) (el x j) * el w i * el w j * ((el x i + el x j) ^ r - el x i ^ r - el x j ^ r))).
(** condensation of dimers of mass [oMass o] and concentration [oConc o] *)
Definition condense (k : mechs) (g : gas) (w x : list R) (o : nucOut) (r : nat) : R :=
  INR r * oConc o * oMass o * Sum (length w) (fun i => kernel k g (oMass o) (el x i) * el w i * el x i ^ (r - 1)).
(** all contributions to moment [r]; M0 and M1 are the given moments (HACA needs them) *)
Definition qmomSource (k : mechs) (g : gas) (M0 M1 : R) (w x : list R) (o : nucOut) (r : nat) : R :=
  oJ o * nucMass (oGas o) ^ r + condense k g w x o r
  + (kgrow k g M0 M1 - koxid k g M0 M1) * areaCoef * INR r * fracMoment w x (INR r - 1 / 3)
  + smoluchowski k g w x r.

(** lists of non-negative numbers *)
Definition nonneg (l : list R) : Prop := forall y, In y l -> 0 <= y.
(** a quadrature model and state of [2 p] moments *)
Definition isQmom (m : model (N:=XR)) (s : state (N:=XR)) (p : nat) : Prop :=
  sm_psd m = P_QMOM /\ sm_nsoot m = (2 * p)%nat /\ (1 <= p)%nat /\ length (wts s) = p /\ length (absc s) = p.
(** the nodes computed from the moments [soot] *)
Definition nodesOf (eig : eigSolver (N:=XR)) (soot : list R) (p : nat) (w x : list R) : Prop :=
  getWtsAbs eig (map Fin soot) (map Fin (repeat 0 p)) (map Fin (repeat 0 p)) = Ok (map Fin w, map Fin x).

(** *** Gauss quadrature *)
(** [vec l] (components [vec l i]) and [val l] are an orthonormal eigen-decomposition
    of the symmetric tridiagonal matrix with diagonal [d] and off-diagonal [e] *)
Definition decomposes (n : nat) (d e : list R) (val : nat -> R) (vec : nat -> nat -> R) : Prop :=
  (forall l i, (l < n)%nat -> (i < n)%nat ->
     val l * vec l i = (if Nat.eqb i 0 then 0 else el e (i - 1) * vec l (i - 1)%nat) + el d i * vec l i
                       + (if Nat.ltb (S i) n then el e i * vec l (S i) else 0)) /\
  (forall i j, (i < n)%nat -> (j < n)%nat -> Sum n (fun l => vec l i * vec l j) = if Nat.eqb i j then 1 else 0).
(** the solver works for every matrix of order [n]; eigenvectors are stored by columns *)
Definition honest (eig : eigSolver (N:=XR)) (n : nat) : Prop :=
  forall d e, length d = n -> length e = (n - 1)%nat -> exists val vec, decomposes n d e val vec /\
    (forall l, (l < n)%nat -> fst (eig n (map Fin d) (map Fin e)) l = Fin (val l)) /\
    (forall l i, (l < n)%nat -> (i < n)%nat -> snd (eig n (map Fin d) (map Fin e)) (i + l * n)%nat = Fin (vec l i)).
(** positivity of the quadratic form with coefficients [h (i + j)] *)
Definition positiveForm (n : nat) (h : nat -> R) : Prop :=
  forall c, length c = n -> (exists y, In y c /\ y <> 0) -> 0 < Sum n (fun i => Sum n (fun j => el c i * el c j * h (i + j)%nat)).
(** the first [2 n] numbers are the moments of a distribution on positive sizes
    with at least [n] different sizes (Stieltjes' condition) *)
Definition realizable (n : nat) (soot : list R) : Prop :=
  positiveForm n (el soot) /\ positiveForm n (fun i => el soot (S i)).
(** the moments of a finite population of soot: concentrations [w] of the sizes [x] *)
Definition momentsOf (w x : list R) (n : nat) : list R := map (nodeMoment w x) (seq 0 n).
Definition population (w x : list R) : Prop :=
  length x = length w /\ (forall y, In y w -> 0 < y) /\ (forall y, In y x -> 0 < y) /\ NoDup x.

(** *** calls *)
(** a valid quadrature model and state with moments [soot], as made by the constructors and setState *)
Definition readyQmom (m : model (N:=XR)) (s : state (N:=XR)) (g : gas) (k : mechs) (soot : list R) (p : nat) : Prop :=
  isQmom m s p /\ hasAll m k /\ okAll k /\ valid s g soot /\ length soot = (2 * p)%nat /\ regular k g (el soot 0) (el soot 1).
(** the state holds these nodes *)
Definition nodesAre (s : state (N:=XR)) (w x : list R) : Prop := wts s = map Fin w /\ absc s = map Fin x.
(** the solver notices a matrix that is not a number *)
Definition noticesNaN (eig : eigSolver (N:=XR)) : Prop :=
  forall n d e, (1 <= n)%nat -> In NaN d -> exists l, (l < n)%nat /\ fst (eig n d e) l = NaN.
