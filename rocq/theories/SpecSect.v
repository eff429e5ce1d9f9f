(** Specification vocabulary for the sectional model (C28-C32), over real numbers.
    Bin masses [b] and numbers per bin [n] are lists of the same length. *)
From Coq Require Import ZArith List Reals.
From Verif Require Import Num Defs State Coag Nucl SootModel Sect Calls XR SpecChem SpecCoag SpecValid SpecRates SpecPah SpecPsd.
Import ListNotations.
Local Open Scope R_scope.

(** sum over the bins, entry of a list *)
Definition Sum (n : nat) (f : nat -> R) : R := sumR (map f (seq 0 n)).
Definition el (l : list R) (j : nat) : R := nth j l 0.

(** positive, strictly increasing bin masses, at least two *)
Definition goodBins (b : list R) : Prop :=
  (2 <= length b)%nat /\ 0 < el b 0 /\ forall j, (S j < length b)%nat -> el b j < el b (S j).
(** carbon particles of [c], [c F], [c F^2] ... atoms *)
Definition geometric (c : Z) (F : R) (n : nat) : list R :=
  map (fun j => IZR c * F ^ j * (massC / avogadro)) (seq 0 n).

(** a sectional model with these bins and growth factor; a PAH one has room for
    one collision rate per bin *)
Definition isSect (m : model (N:=XR)) (b : list R) (F : R) : Prop :=
  sm_psd m = P_SECT /\ sm_nsoot m = length b /\ sm_mBins m = map Fin b /\
  exists beta, sm_priv m = PrivSect (Fin F) beta /\ (isPAH m = true -> length beta = length b).

(** the constant used to locate collision products: the model's own (first
    sectional coagulation in the process) or the one the process holds already *)
Definition located (st : option xr) (F c : R) : Prop :=
  st = Some (Fin c) \/ st = None /\ 0 < F /\ F <> 1 /\ c = / ln F.
(** bin located for a mass *)
Definition binOf (c : R) (b : list R) (m : R) : nat := Z.to_nat (Int_part (c * ln (m / el b 0))).
(** the located index fits in a size_t *)
Definition fits (c : R) (b : list R) : Prop := forall i j, (i < length b)%nat -> (j < length b)%nat ->
  -1 < c * ln ((el b i + el b j) / el b 0) < IZR (2 ^ 64).

(** surface area of the particles of a bin *)
Definition binArea (b n : list R) (j : nat) : R := el n j * sphere (el b j).
(** mass added at rate [r j] to the particles of each bin moves them up one bin;
    from the last bin nothing leaves: its particles multiply *)
Definition moveUp (b : list R) (r : nat -> R) (j : nat) : R :=
  (if Nat.eqb j 0 then 0 else r (j - 1)%nat / (el b j - el b (j - 1)))
  + (if Nat.eqb (S j) (length b) then r j / el b j else - (r j / (el b (S j) - el b j))).
(** mass removed at rate [r j] moves particles down; those of the first bin vanish *)
Definition moveDown (b : list R) (r : nat -> R) (j : nat) : R :=
  (if Nat.eqb (S j) (length b) then 0 else r (S j) / (el b (S j) - el b j))
  - (if Nat.eqb j 0 then r 0%nat / el b 0 else r j / (el b j - el b (j - 1))).
(** number credited to bin [j] for one particle of mass [m] located at bin [t]:
    shared between [t] and [t+1]; at or beyond the last bin all goes there, by mass *)
Definition lastBin (b : list R) : nat := (length b - 1)%nat.
Definition shareLow (b : list R) (t : nat) (m : R) : R := (el b (S t) - m) / (el b (S t) - el b t).
Definition credit (b : list R) (t : nat) (m : R) (j : nat) : R :=
  if Nat.leb (lastBin b) t then (if Nat.eqb j (lastBin b) then m / el b (lastBin b) else 0)
  else if Nat.eqb j t then shareLow b t m
  else if Nat.eqb j (S t) then 1 - shareLow b t m else 0.
(** collisions of all pairs *)
Definition coagAt (k : mechs) (g : gas) (b n : list R) (c : R) (j : nat) : R :=
  let h i l := kernel k g (el b i) (el b l) * el n i * el n l in
  let m i l := el b i + el b l in
  1 / 2 * Sum (length b) (fun i => Sum (length b) (fun l => h i l * credit b (binOf c b (m i l)) (m i l) j))
  - Sum (length b) (fun l => h j l).

(** number and mass of the soot *)
Definition number (n : list R) : R := sumR n.
Definition mass (b n : list R) : R := dot n b.
(** rate at which a dimer hits soot *)
Definition dimerHits (k : mechs) (g : gas) (b n : list R) : R :=
  Sum (length b) (fun j => kernel k g (dimerMass g) (el b j) * el n j).
(** condensed mass per bin *)
Definition condensed (k : mechs) (g : gas) (b n : list R) (o : nucOut) (j : nat) : R :=
  kernel k g (oMass o) (el b j) * el n j * oConc o * oMass o.
(** all contributions to bin [j] *)
Definition sectSource (k : mechs) (g : gas) (b n : list R) (c : R) (o : nucOut) (j : nat) : R :=
  let M0 := number n in let M1 := mass b n in
  (if Nat.eqb j 0 then oN1 o / el b 0 else 0)
  + moveUp b (fun l => kgrow k g M0 M1 * binArea b n l) j
  + moveUp b (condensed k g b n o) j
  + moveDown b (fun l => koxid k g M0 M1 * binArea b n l) j
  + coagAt k g b n c j.
Definition totalArea (b n : list R) : R := Sum (length b) (binArea b n).

(** every double above 1 is at least this; a vector length that can exist *)
Definition doubleAbove1 (F : R) : Prop := 1 + / 2 ^ 52 <= F.
Definition sane (ns : nat) : Prop := (2 <= ns)%nat /\ (Z.of_nat ns <= 2 ^ 62)%Z.
(** the process holds no constant yet, or that of growth factor [F] *)
Definition ownConst (st : option xr) (F : R) : Prop := st = None \/ st = Some (Fin (/ ln F)).
