(** Specification vocabulary for the burner-flame drivers (C68). *)
From Coq Require Import ZArith List Bool Reals.
From Verif Require Import Num Defs State Coag Nucl Growth Oxid Tar SootModel Qmom Calls Interp Flame XR SpecInterp SpecValid SpecPsd.
Import ListNotations.
Local Open Scope R_scope.

(** the flame: height, velocity, temperature, density, viscosity, mass fractions *)
Record flow := mkFlow { w_z : list R; w_v : list R; w_T : list R; w_rho : list R; w_mu : list R; w_y : gasSp -> list R }.
Definition columnsOf (f : flow) : columns (N:=XR) :=
  mkColumns (N:=XR) (map Fin (w_z f)) (map Fin (w_v f)) (map Fin (w_T f)) (map Fin (w_rho f)) (map Fin (w_mu f))
    (map Fin (w_y f O2)) (map Fin (w_y f O_)) (map Fin (w_y f H2)) (map Fin (w_y f H_)) (map Fin (w_y f OH))
    (map Fin (w_y f H2O)) (map Fin (w_y f CO)) (map Fin (w_y f C2H2)).

(** the piecewise linear function through the points (X_i, Y_i) *)
Fixpoint lineAt (X Y : list R) (x : R) : R :=
  match X, Y with
  | a :: ((b :: more) as X'), c :: ((d :: _) as Y') =>
      if match more with [] => true | _ => if Rle_dec x b then true else false end
      then c + (x - a) * (d - c) / (b - a) else lineAt X' Y' x
  | _, _ => 0
  end.

(** the species the input file has columns for *)
Definition given (sp : gasSp) : Prop := In sp [O2; O_; H2; H_; OH; H2O; CO; C2H2].
(** complete tables over at least two increasing heights *)
Definition wellFormed (f : flow) : Prop :=
  (2 <= length (w_z f))%nat /\ increasing (w_z f) /\
  length (w_v f) = length (w_z f) /\ length (w_T f) = length (w_z f) /\ length (w_rho f) = length (w_z f) /\ length (w_mu f) = length (w_z f) /\
  forall sp, given sp -> length (w_y f sp) = length (w_z f).
(** ... of physical values *)
Definition physicalFlow (f : flow) : Prop :=
  wellFormed f /\ (forall x, In x (w_v f) -> 0 < x) /\ (forall x, In x (w_T f) -> 0 < x) /\ (forall x, In x (w_rho f) -> 0 < x) /\
  (forall x, In x (w_mu f) -> 0 < x) /\ forall sp, given sp -> forall x, In x (w_y f sp) -> 0 <= x <= 1.

Definition bottom (f : flow) : R := nth 0 (w_z f) 0.
Definition top (f : flow) : R := nth (length (w_z f) - 1) (w_z f) 0.
Definition velAt (f : flow) (z : R) : R := lineAt (w_z f) (w_v f) z.
Definition rhoAt (f : flow) (z : R) : R := lineAt (w_z f) (w_rho f) z.
(** the gas at height z: one atmosphere, no PAH, species without a column absent *)
Definition gasAt (f : flow) (z : R) : gas :=
  mkGas (lineAt (w_z f) (w_T f) z) 101325 (rhoAt f z) (lineAt (w_z f) (w_mu f) z) 1667
    (fun sp => match sp with C6H6 | C_ | CO2 => 0 | _ => lineAt (w_z f) (w_y f sp) z end) (fun _ => 0).
(** the same gas with another mass fraction of oxygen *)
Definition withO2 (g : gas) (y : R) : gas :=
  mkGas (gT g) (gP g) (gRho g) (gMu g) (gCMin g) (fun sp => match sp with O2 => y | _ => gY g sp end) (gPah g).
(** what the drivers use in the middle of a step: the hydrogen atoms in place of the oxygen *)
Definition driverGas (f : flow) (z : R) : gas := withO2 (gasAt f z) (lineAt (w_z f) (w_y f H_) z).

(** soot sources that a new state and the unused model [m] give for the gas [g] and the soot
    variables [M], all eleven species being passed *)
Definition fresh (eig : eigSolver (N:=XR)) (m : model (N:=XR)) (n : nat) (g : gas) (M r : list xr) : Prop :=
  exists st m' s', runActions (None, m, newState n 0)
    [ASet (N:=XR) (Fin (gT g)) (Fin (gP g)) (Fin (gRho g)) (Fin (gMu g)) (map Fin (gasVec (gY g))) (map Fin (pahVec (gPah g))) M (Z.of_nat n) [] 0 (Fin (gCMin g));
     ASrc eig] = Ok (st, m', s') /\ soots m' = r.

Definition times (c : R) (M : list xr) : list xr := map (fun x => xmul x (Fin c)) M.
(** M + h * r / rho / v, entry by entry *)
Definition along (M r : list xr) (h rho v : R) : list xr :=
  map (fun ab => xadd (fst ab) (xdiv (xdiv (xmul (Fin h) (snd ab)) (Fin rho)) (Fin v))) (combine M r).
(** one step of length dz of the midpoint rule for d(M/rho)/dz = source/(rho v), with the gas
    [mid] for the second evaluation *)
Definition midpointWith (mid : R -> gas) (eig : eigSolver (N:=XR)) (m : model (N:=XR)) (n : nat) (f : flow) (dz z : R) (M M' : list xr) : Prop :=
  exists r1 r2, let zh := z + dz / 2 in
    fresh eig m n (gasAt f z) (times (rhoAt f z) M) r1 /\
    fresh eig m n (mid zh) (times (rhoAt f zh) (along M r1 (dz / 2) (rhoAt f z) (velAt f z))) r2 /\
    M' = along M r2 dz (rhoAt f zh) (velAt f zh).
(** the rule as intended *)
Definition midpoint (eig : eigSolver (N:=XR)) (m : model (N:=XR)) (n : nat) (f : flow) := midpointWith (gasAt f) eig m n f.

(** sizes with which the model of the driver is built and its calls return *)
Definition flameSize (p : psdMech) (n : nat) : Prop :=
  match p with
  | P_LOGN => n = 3%nat
  | P_QMOM => (2 <= n <= 34)%nat /\ Nat.even n = true
  | P_MOMIC => (3 <= n <= 7)%nat
  | _ => False
  end.

(** heights of the steps *)
Definition stepLen (f : flow) (nsteps : nat) : R := (top f - bottom f) / INR nsteps.
Definition height (f : flow) (nsteps i : nat) : R := bottom f + INR i * stepLen f nsteps.
(** the rows of the output file: the start, and every 200th step *)
Definition rows (f : flow) (nsteps k : nat) (M : nat -> list xr) : list (xr * list xr) :=
  (Fin (bottom f), times (rhoAt f (bottom f)) (M 0%nat)) ::
  map (fun i => (Fin (height f nsteps (S i)), times (rhoAt f (height f nsteps (S i))) (M (S i))))
      (filter (fun i => Nat.eqb (Nat.modulo i 200) 0) (seq 0 k)).
