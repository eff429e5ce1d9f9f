(** Specification vocabulary for the method of moments with interpolative closure (C38-C40, C57-C59). *)
From Coq Require Import ZArith List Reals.
From Verif Require Import Num Defs State Coag Nucl SootModel Calls XR SpecChem SpecCoag SpecValid SpecRates SpecGas SpecPah SpecPsd SpecSect SpecQmom SpecBinomial SpecLogn.
Import ListNotations.
Local Open Scope R_scope.

(** *** Newton interpolation *)
(** r (r-1) ... (r-k+1) / k! *)
Fixpoint gbin (r : R) (k : nat) : R :=
  match k with O => 1 | S j => gbin r j * ((r - INR j) / INR (S j)) end.
(** k-th forward difference of [f] at [i] *)
Fixpoint fdiff (k : nat) (f : nat -> R) (i : nat) : R :=
  match k with O => f i | S j => fdiff j f (S i) - fdiff j f i end.
(** value at [r] of the polynomial of degree < [n] through (0, f 0) ... (n-1, f (n-1)) *)
Definition interpolate (n : nat) (f : nat -> R) (r : R) : R := Sum n (fun k => gbin r k * fdiff k f 0).

(** moment of any real order by interpolation of the logarithm: all given moments
    for orders from 0 up, the first three below *)
Definition points (n : nat) (r : R) : nat := if Rle_dec 0 r then n else 3%nat.
Definition momentAt (M : list R) (r : R) : R := exp (interpolate (points (length M) r) (fun j => ln (el M j)) r).
Definition momicMom (M : list R) (z : Z) : R := momentAt M (sixth z).

(** *** free-molecular grid functions: with f z, g z the moments of order z/6,
    the sum of (a+b)^l a^(x-1/2) b^(y-1/2) (a^(1/3) + b^(1/3))^2 over all pairs a, b *)
Definition pairSum (f g : Z -> R) (a b : Z) : R :=
  f (a - 3)%Z * g (b + 1)%Z + 2 * f (a - 1)%Z * g (b - 1)%Z + f (a + 1)%Z * g (b - 3)%Z.
Definition gridInt (f g : Z -> R) (x y l : nat) : R :=
  Sum (S l) (fun j => IZR (choose l j) * pairSum f g (6 * Z.of_nat (x + j)) (6 * Z.of_nat (y + l - j))).
(** interpolated to l = 1/2 on 4, 3 or 2 points, as many as the higher moments allow *)
Definition gridHalf (f g : Z -> R) (x y p : nat) : R :=
  exp (interpolate (if Nat.leb p 2 then 4 else if Nat.leb p 3 then 3 else 2) (fun l => ln (gridInt f g x y l)) (1 / 2)).

(** *** coagulation source of moment r for the free-molecular and the continuum kernel;
    the mass moment is conserved *)
Definition momFM (k : mechs) (g : gas) (M : Z -> R) (r : nat) : R :=
  match r with
  | O => - (1 / 2) * kFM (mF k) g * gridHalf M M 0 0 0
  | 1%nat => 0
  | _ => 1 / 2 * kFM (mF k) g * sumR (map (fun q => IZR (choose r q) * gridHalf M M q (r - q) (r - q)) (seq 1 (r - 1)))
  end.
(** collisions weighted with a^p b^q *)
Definition coMean (g : gas) (M : Z -> R) (p q : nat) : R :=
  meanOf (coTerms g) (fun z => M (z + 6 * Z.of_nat p)%Z) (fun z => M (z + 6 * Z.of_nat q)%Z).
(** as documented: the sum over all splits *)
Definition momCoDoc (g : gas) (M : Z -> R) (r : nat) : R :=
  match r with
  | O => - (1 / 2) * coMean g M 0 0
  | 1%nat => 0
  | _ => 1 / 2 * sumR (map (fun q => IZR (choose r q) * coMean g M q (r - q)) (seq 1 (r - 1)))
  end.
(** as computed: the last split only *)
Definition momCo (g : gas) (M : Z -> R) (r : nat) : R :=
  match r with
  | O => - (1 / 2) * coMean g M 0 0
  | 1%nat => 0
  | _ => 1 / 2 * (INR r * coMean g M (r - 1) 1)
  end.
Definition momCoag (k : mechs) (g : gas) (M : Z -> R) (r : nat) : R :=
  match mC k, r with
  | _, 1%nat => 0
  | C_FM, _ => momFM k g M r
  | C_CONTINUUM, _ => momCo g M r
  | _, _ => harm (momFM k g M r) (momCo g M r)
  end.

(** *** condensation: collisions of a dimer of mass [x] with the distribution.  Free-molecular:
    weighted with mass^(r-1); continuum: never weighted *)
Definition powers (x : R) (z : Z) : R := Rpower x (sixth z).
Definition condFM (k : mechs) (g : gas) (x : R) (M : Z -> R) (r : nat) : R :=
  kFM (mF k) g * gridHalf (powers x) M 0 (r - 1) r.
Definition condCo (g : gas) (x : R) (M : Z -> R) : R := hitsOf (coTerms g) x M 0.
(** the continuum collisions weighted with mass^(r-1), as the comments beside the code say *)
Definition condCoDoc (g : gas) (x : R) (M : Z -> R) (r : nat) : R := hitsOf (coTerms g) x M (Z.of_nat (r - 1)).
Definition momHits (k : mechs) (g : gas) (x : R) (M : Z -> R) (r : nat) : R := harm (condFM k g x M r) (condCo g x M).

(** *** the source of moment r; [m0], [m1] the moments the HACA fit uses *)
Definition surfPart (kk : R) (M : list R) (r : nat) : R :=
  match r with O => 0 | _ => kk * areaCoef * INR r * momentAt M (INR r - 1 / 3) end.
Definition condPart (k : mechs) (g : gas) (M : Z -> R) (o : nucOut) (r : nat) : R :=
  match r with O => 0 | _ => if isP k then INR r * oMass o * oConc o * momHits k g (oMass o) M r else 0 end.
Definition momicSource (k : mechs) (g : gas) (M : list R) (o : nucOut) (r : nat) : R :=
  let kk := kgrow k g (el M 0) (el M 1) - koxid k g (el M 0) (el M 1) in
  oJ o * nucMass (oGas o) ^ r + condPart k g (momicMom M) o r + surfPart kk M r + momCoag k g (momicMom M) r.

(** sizes of the private arrays, as set by the constructors and kept by every call *)
Definition momicArrays (m : model (N:=XR)) (n : nat) : Prop :=
  exists row p6 q6 x, sm_priv m = PrivMomic (mkInterp n row p6 q6 x) /\ length p6 = 22%nat /\ length q6 = 30%nat.
(** a valid model and state, as made by the constructors and setState *)
Definition readyMomic (m : model (N:=XR)) (s : state (N:=XR)) (g : gas) (k : mechs) (M : list R) : Prop :=
  sm_psd m = P_MOMIC /\ momicArrays m (length M) /\ hasAll m k /\ okAll k /\ momentCoag k /\
  valid s g M /\ regular k g (el M 0) (el M 1) /\ (3 <= length M <= 7)%nat.
Definition allPos (M : list R) : Prop := forall x, In x M -> 0 < x.
(** moments of n particles of one mass x *)
Definition oneSize (n x : R) (p : nat) : list R := map (fun j => n * x ^ j) (seq 0 p).
(** the sources of n particles of mass x: nucleation, surface reactions, and a share of Smoluchowski's *)
Definition oneSource (k : mechs) (g : gas) (n x share : R) (r : nat) : R :=
  let kk := kgrow k g n (n * x) - koxid k g n (n * x) in
  Jnuc k g * nucMass g ^ r + kk * areaCoef * INR r * (n * Rpower x (INR r - 1 / 3)) + share * smoluchowski k g [n] [x] r.
