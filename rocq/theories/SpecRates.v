(** Specification vocabulary: closed formulas over real numbers for the nucleation,
    growth and oxidation rates (C16-C18, C54).  [g] is the gas, [M0], [M1] the number
    and mass of soot per volume. *)
From Coq Require Import ZArith List Reals.
From Verif Require Import Num Defs State Nucl Growth Oxid XR SpecChem SpecCoag SpecValid.
Import ListNotations.
Local Open Scope R_scope.

Definition sumR (l : list R) : R := fold_right Rplus 0 l.
(** sum of products of two lists of the same length *)
Definition dot (a b : list R) : R := sumR (map (fun p => fst p * snd p) (combine a b)).

(** the number and mass of soot that a mechanism attached to the soot model [v]
    finds in the soot variables: for the sectional model the sums over its bins
    (with positive bin masses), for all others the first two moments *)
Definition seesMoments (v : smView (N:=XR)) (soot : list R) (M0 M1 : R) : Prop :=
  (sv_psd v <> P_SECT /\ nth_error soot 0 = Some M0 /\ nth_error soot 1 = Some M1) \/
  (sv_psd v = P_SECT /\ (2 <= length soot)%nat /\ sv_nsoot v = length soot /\
   exists m, sv_mBins v = map Fin m /\ length m = length soot /\ (forall x, In x m -> 0 < x) /\
             M0 = sumR soot /\ M1 = dot soot m).

(** surface of the soot per volume, all particles having the mean mass *)
Definition surface (M0 M1 : R) : R :=
  if Rlt_dec 0 M0 then if Rlt_dec 0 M1 then M0 * (piC * diam (M1 / M0) ^ 2) else 0 else 0.

(** carbon atoms nucleated -> particles nucleated *)
Definition perParticle (g : gas) (atoms : R) : R := atoms * avogadro / gCMin g.

Definition nuclFormula (c : nucleationMech) (g : gas) : R :=
  let k A E := A * exp (- E / gT g) in
  match c with
  | N_LL => k 10000 21100 * conc g C2H2 * perParticle g 2
  | N_LIN => k 6300 21100 * conc g C2H2 * perParticle g 2
  | N_LINA1 => k 75000 21100 * conc g C6H6 * perParticle g 6
  | N_MB => k 54 21000 * conc g C2H2 * avogadro
  | N_FAIR => k 1350000 (41000 / (1987 / 1000)) * conc g C2H2 * perParticle g 2
  | _ => 0
  end.
Definition gasOnly (c : nucleationMech) : Prop := c <> N_PAH /\ c <> N_AJ_RED /\ c <> N_BROWN.

(** *** HACA, docs/models/1_chemistry.md 108-121.  Energies in kcal/mol, concentrations in mol/cm3 *)
Section HACA.
Context (g : gas).
Let k A n E := A * Rpower (gT g) n * exp (- E / (19872036 / 10000000000 * gT g)).
Let cc sp := conc g sp / 1000.
Definition haca4 : R := k (8 * 10 ^ 7) (156 / 100) (38 / 10) * cc C2H2.
Definition haca5 : R := k (22 * 10 ^ 11) 0 (75 / 10) * cc O2.
Definition hacaUp : R := k (42 * 10 ^ 12) 0 13 * cc H_ + k (10 ^ 10) (734 / 1000) (143 / 100) * cc OH.
Definition hacaDown : R :=
  k (39 * 10 ^ 11) 0 11 * cc H2 + k (368 * 10 ^ 6) (1139 / 1000) (171 / 10) * cc H2O
  + 2 * 10 ^ 13 * cc H_ + haca4 + haca5.
(** radical sites per cm2; the code counts two per site of the documentation *)
Definition hacaRadicals : R :=
  if Req_EM_T hacaDown 0 then 0 else hacaUp / hacaDown * (2 * (23 * 10 ^ 14)).
(** active-site fraction *)
Definition hacaA : R := 33167 / 1000 - 154 / 10000 * gT g.
Definition hacaB : R := - (25786 / 10000) + 112 / 100000 * gT g.
Definition activeSites (M0 M1 : R) : R :=
  let tail x := if Rlt_dec x 0 then 1 else tanh x in
  if Rlt_dec 0 M0 then
    if Req_EM_T M1 M0 then 1
    else if Rlt_dec 0 M1 then tail (hacaA / (ln (M1 / M0) / ln 10) + hacaB)
    else tail hacaB
  else 1.
(** carbon mass rate per m2 of a reaction adding or removing two carbon atoms per site *)
Definition hacaMass (r : R) : R := 2 * massC / avogadro * (10 ^ 4 * r).
End HACA.

(** the one temperature and mean mass (1 kg) at which the fit is not defined *)
Definition hacaDegenerate (g : gas) (M0 M1 : R) : Prop := 0 < M0 /\ M1 = M0 /\ hacaA g = 0.

Definition growFormula (c : growthMech) (g : gas) (M0 M1 : R) : R :=
  let t := gT g in
  match c with
  | G_LL => if Rlt_dec 0 (surface M0 M1)
            then 600 * exp (- 12100 / t) * conc g C2H2 / sqrt (surface M0 M1) * (2 * massC) else 0
  | G_LIN => 750 * exp (- 12100 / t) * conc g C2H2 * (2 * massC)
  | G_FAIR => if Rlt_dec 0 (surface M0 M1)
              then 500 * exp (- (24000 / (1987 / 1000)) / t) * conc g C2H2 * massC else 0
  | G_MB => if Rlt_dec 0 (surface M0 M1) then
              if Rlt_dec 0 (conc g C2H2) then 430 * exp (- 12100 / t) * Rpower (conc g C2H2) (2 / 3) else 0 else 0
  | G_HACA => hacaMass (haca4 g * hacaRadicals g * activeSites g M0 M1)
  | G_NONE | G_size => 0
  end.

(** collisions of OH with a surface, times the collision efficiency, as removed carbon *)
Definition hitsOH (g : gas) (eff : R) : R :=
  eff * conc g OH * sqrt (avogadro * boltzmann * gT g / (2 * piC * molarMass OH)) * massC.
(** Nagle and Strickland-Constable, docs/models/1_chemistry.md 147-158; [p] is the O2 pressure in atm *)
Definition nsc (t p : R) : R :=
  let kA := 20 * exp (- 15098 / t) in
  let kB := 446 / 100000 * exp (- 7650 / t) in
  let kT := 151000 * exp (- 48817 / t) in
  let kZ := 213 / 10 * exp (2063 / t) in
  let x := kB * p / (kB * p + kT) in
  sootDensity * (kA * p * (x / (1 + kZ * p)) + kB * p * (1 - x)).
Definition atm (p : R) : R := p / 101325.

Definition oxidFormula (c : oxidationMech) (g : gas) (M0 M1 : R) : R :=
  let t := gT g in let Rgas := avogadro * boltzmann in
  match c with
  | O_LL => 10000 * sqrt t * exp (- 19680 / t) * conc g O2 * massC
  | O_FAIR => 17800 * sqrt t * exp (39000 / (1987 / 1000 * t)) * conc g O2
  | O_LEE_NEOH => 10850 * atm (partialP g O2) / sqrt t * exp (- (1977824 / 100) / t) / 1000 + hitsOH g (13 / 100)
  | O_NSC_NEOH => nsc t (atm (partialP g O2)) + 1290 * (13 / 100) * atm (partialP g OH) / sqrt t
  | O_OPTJ => 798 / 1000 * partialP g O2 / sqrt t * exp (- 21294 / t) / 1000 + hitsOH g (15 / 100)
  | O_OPTG => 158 / 10 * partialP g O2 / sqrt t * exp (- 23450 / t) / 1000 + hitsOH g (1 / 10)
  | O_MB => 42325 / 10000 * conc g OH * sqrt t
  | O_HACA => hacaMass (haca5 g * hacaRadicals g * activeSites g M0 M1) + hitsOH g (13 / 100)
  | O_AJ_RED => (192 / 100000 * partialP g O2 * exp (- 116000 / (Rgas * t)) + 293 / 100000 * partialP g OH) / sqrt t
  | O_BROWN => 109000 * atm (partialP g O2) / sqrt t * exp (- 164500000 / (Rgas * t))
  | O_NONE | O_size => 0
  end.

(** *** PAH dimerisation, docs/models/1_chemistry.md 38-46 *)
(** number density of a PAH species, mass of a molecule, sticking coefficient *)
Definition pahDensity (g : gas) (sp : pahSp) : R := gRho g * gPah g sp / pahMolarMass sp * avogadro.
Definition pahMass (sp : pahSp) : R := pahMolarMass sp / avogadro.
Definition sticking (sp : pahSp) : R :=
  match sp with C10H8 => 133 / 100000 | C12H8 => 267 / 100000 | C12H10 => 85 / 10000
              | C14H10 => 15 / 1000 | C16H10 => 25 / 1000 | C18H10 => 39 / 1000 end.
(** collision kernel of two equal bodies of mass m without enhancement *)
Definition betaSelf (t m : R) : R := 4 * sqrt (piC * boltzmann * t / m) * Rpower (6 * m / (piC * sootDensity)) (2 / 3).
(** molecules of the species consumed per volume and time *)
Definition pahLoss (g : gas) (sp : pahSp) : R :=
  sticking sp * betaSelf (gT g) (pahMass sp) * pahDensity g sp ^ 2.
(** dimers formed, mean dimer mass (carbon), carbon and hydrogen atoms of a nucleus (two dimers) *)
Definition pahSum (f : pahSp -> R) : R := sumR (map f allPah).
Definition dimerRate (g : gas) : R := pahSum (fun sp => pahLoss g sp / 2).

(** *** Rates as the documentation gives them, docs/models/1_chemistry.md 26-36, 147-187;
    oxidation rates in kg/m2s *)
Definition docNucl (c : nucleationMech) (g : gas) : option R :=
  match c with
  | N_LL => Some (1 / 10 * 10 ^ 5 * exp (- 21100 / gT g) * conc g C2H2 * (2 * avogadro / gCMin g))
  | N_LIN => Some (64 / 100 * 10 ^ 4 * exp (- 21100 / gT g) * conc g C2H2 * (2 * avogadro / gCMin g))
  | N_LINA1 => Some (75 / 100 * 10 ^ 5 * exp (- 21000 / gT g) * conc g C6H6 * (6 * avogadro / gCMin g))
  | _ => None
  end.
Definition docOxid (c : oxidationMech) (g : gas) : option R :=
  let t := gT g in
  let neoh eff p := eff * 1290 * p * Rpower t (- (1 / 2)) in
  match c with
  | O_LL => Some (1 / 10 * 10 ^ 5 * Rpower t (1 / 2) * exp (- 19680 / t) * conc g O2 * massC)
  | O_NSC_NEOH => Some (nsc t (atm (partialP g O2)) + neoh (13 / 100) (atm (partialP g OH)))
  | O_OPTG => Some (158 / 10 * partialP g O2 * Rpower t (1 / 2) * exp (- 23450 / t) / 1000 + neoh (1 / 10) (atm (partialP g OH)))
  | O_OPTJ => Some (798 / 1000 * partialP g O2 * Rpower t (1 / 2) * exp (- 21294 / t) / 1000 + neoh (15 / 100) (atm (partialP g OH)))
  | _ => None
  end.
