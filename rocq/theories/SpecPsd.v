(** Specification vocabulary for the particle-size models (C21-C49): mechanism
    choices, kernels and balances over real numbers. *)
From Coq Require Import ZArith List Reals.
From Verif Require Import Num Defs State Coag Nucl Growth Oxid Tar SootModel Calls XR SpecChem SpecCoag SpecValid SpecRates SpecGas SpecTar SpecPah.
Import ListNotations.
Local Open Scope R_scope.

(** the mechanisms of a soot model and its FM_multiplier *)
Record mechs := mkMechs {
  mN : nucleationMech; mG : growthMech; mO : oxidationMech; mC : coagulationMech; mF : R }.
(** real mechanisms, without PAH; with a nucleation mechanism that needs no tar *)
Definition okAny (k : mechs) : Prop :=
  mN k <> N_PAH /\ mN k <> N_size /\ mG k <> G_size /\ mO k <> O_size /\ mC k <> C_size /\ 0 < mF k.
Definition okMechs (k : mechs) : Prop := gasOnly (mN k) /\ okAny k.
(** the soot model was given freshly constructed mechanism objects of these kinds
    (growth and oxidation objects never change; the coagulation object holds its
    multiplier; the nucleation object changes only for PAH) *)
Definition hasGOC (m : model (N:=XR)) (k : mechs) : Prop :=
  sm_grow m = newGrow (mG k) /\ sm_oxid m = newOxid (mO k) /\ sm_coag m = with_f (mC k) (mF k).
Definition hasMechs (m : model (N:=XR)) (k : mechs) : Prop :=
  sm_nucl m = newNucl (mN k) /\ hasGOC m k.
Definition noTar (m : model (N:=XR)) : Prop := sm_tar m = newTar T_NONE.

(** collision kernel of two masses, zero at or below the cutoff *)
Definition kernel (k : mechs) (g : gas) (m1 m2 : R) : R :=
  if Rlt_dec massCutoff m1 then if Rlt_dec massCutoff m2 then
    match mC k with
    | C_FM => betaFM (mF k) (gT g) m1 m2
    | C_CONTINUUM => betaC (slipLinear (gP g) (gRho g) (gMu g)) (gT g) (gMu g) m1 m2
    | C_HM => betaHM (mF k) (gT g) (gP g) (gRho g) (gMu g) m1 m2
    | C_FUCHS => betaFuchs (mF k) (gT g) (gP g) (gRho g) (gMu g) m1 m2
    | C_NONE | C_size => 0
    end else 0 else 0.

(** mass of one nucleated particle *)
Definition nucMass (g : gas) : R := gCMin g * massC / avogadro.
(** nucleation, growth and oxidation rates *)
Definition Jnuc (k : mechs) (g : gas) : R := nuclFormula (mN k) g.
Definition kgrow (k : mechs) (g : gas) (M0 M1 : R) : R := growFormula (mG k) g M0 M1.
Definition koxid (k : mechs) (g : gas) (M0 M1 : R) : R := oxidFormula (mO k) g M0 M1.
(** the HACA fit is defined (see C18) *)
Definition regular (k : mechs) (g : gas) (M0 M1 : R) : Prop :=
  mG k = G_HACA \/ mO k = O_HACA -> ~ hacaDegenerate g M0 M1.
(** surface of one sphere of mass m *)
Definition sphere (m : R) : R := if Rlt_dec 0 m then piC * diam m ^ 2 else 0.

(** soot, gas and PAH source vectors held by a soot model *)
Definition soots (m : model (N:=XR)) : list xr := sootSources (sm_sources m).
Definition gases (m : model (N:=XR)) : list xr := gasSources (sm_sources m).
Definition pahs (m : model (N:=XR)) : list xr := pahSources (sm_sources m).

(** gas sources when nucleation forms [N1] of soot, growth adds [grown], oxidation burns [burnt] *)
Definition reactions (k : mechs) (N1 grown burnt : R) (sp : gasSp) : R :=
  nuclGas (mN k) N1 sp + growGas (mG k) grown sp + oxidGas (mO k) burnt sp.

(** *** with PAH allowed *)
Definition isP (k : mechs) : bool := match mN k with N_PAH => true | _ => false end.
Definition okAll (k : mechs) : Prop :=
  (gasOnly (mN k) \/ mN k = N_PAH) /\ mN k <> N_size /\ mG k <> G_size /\ mO k <> O_size /\ mC k <> C_size /\ 0 < mF k.
(** a PAH nucleation object, new or used before: only its H2 and C ratios may be non-zero *)
Definition pahObject (nu : nuclObj (N:=XR)) : Prop :=
  nu_class nu = N_PAH /\ nu_mech nu = N_PAH /\ length (nu_ratios nu) = 11%nat /\
  forall sp, sp <> H2 -> sp <> C_ -> nth_error (nu_ratios nu) (gasIdx sp) = Some (Fin 0).
Definition hasAll (m : model (N:=XR)) (k : mechs) : Prop :=
  (if isP k then pahObject (sm_nucl m) else sm_nucl m = newNucl (mN k)) /\ hasGOC m k.
(** what nucleation yields when dimers hit soot at rate [i] each: number rate,
    gas data afterwards (cMin), dimer mass and concentration (0 without PAH) *)
Record nucOut := mkOut { oJ : R; oGas : gas; oMass : R; oConc : R }.
Definition nucl (k : mechs) (g : gas) (i : R) : nucOut :=
  if isP k then mkOut (pahNuclRate g i) (gasCMin g (pahCMin g)) (dimerMass g) (dimerConc g i) else mkOut (Jnuc k g) g 0 0.
(** mass of soot formed by nucleation *)
Definition oN1 (o : nucOut) : R := oJ o * nucMass (oGas o).
(** gas sources of nucleation (PAH nucleation only releases the hydrogen of the PAH) *)
Definition nuclPart (k : mechs) (g : gas) (o : nucOut) (sp : gasSp) : R :=
  if isP k then match sp with H2 => oN1 o * (pahHMin g / 2 / pahCMin g) * molarMass H2 / massC | _ => 0 end
  else nuclGas (mN k) (oN1 o) sp.
(** the source of every gas species, when soot forms by nucleation as [o] says, grows by
    [grown] and loses [burnt] *)
Definition gasBudget (m : model (N:=XR)) (k : mechs) (g : gas) (o : nucOut) (grown burnt : R) : Prop :=
  holdsGas (gases m) (fun sp => nuclPart k g o sp + growGas (mG k) grown sp + oxidGas (mO k) burnt sp).
(** PAH sources: those of the mechanism, or what the model held before *)
Definition pahSourcesOf (k : mechs) (g : gas) (old : list xr) : list xr :=
  if isP k then map (fun sp => Fin (- pahLoss g sp * pahMass sp)) allPah else old.

(** *** tar: [mt] molar mass of the tar, [n0] its number (AJ_RED) or mass (BROWN) density *)
(** a power that vanishes at 0 *)
Definition pow0 (x a : R) : R := if Rlt_dec 0 x then Rpower x a else 0.
(** diameter of a tar molecule, from the diameter of an aromatic ring: as used
    by nucleation and as used by deposition *)
Definition tarDiamNucl (mt : R) : R := 1395 / 10 ^ 13 * sqrt 3 * sqrt (2 * mt / (3 * massC)).
Definition tarDiamDepo (mt : R) : R := sqrt (1395 / 10 ^ 13 * 3) * sqrt (2 * mt / (3 * massC)).
Definition nuclTar (c : nucleationMech) (g : gas) (mt n0 : R) : R :=
  match c with
  | N_AJ_RED => enhancement * (tarDiamNucl mt ^ 2 * sqrt (8 * piC * boltzmann * gT g / mt / avogadro)) * n0 ^ 2
                * (2 * avogadro / gCMin g)
  | N_BROWN => n0 * arrhenius 502000000 198900000 (gT g) / massC * (avogadro / gCMin g)
  | _ => nuclFormula c g
  end.
(** deposition (AJ_RED): collisions of tar molecules with soot of mean mass M1/M0 *)
Definition tarDepo (g : gas) (mt n0 M0 M1 : R) : R :=
  let m := M1 / M0 in let mu := mt / avogadro * m / (mt / avogadro + m) in
  if Rlt_dec 0 M1
  then enhancement * ((diam m + tarDiamDepo mt) ^ 2 * sqrt (piC * boltzmann * gT g / (2 * mu))) * n0 * M0 else 0.
(** gasification (AJ_RED) *)
Definition tarGasify (g : gas) : R :=
  192 / 100000 * sqrt (partialP g CO2) * gT g ^ 2 * exp (- 5550000 / (avogadro * boltzmann * gT g))
  + 192 / 100000 * pow0 (partialP g H2O) (121 / 100) / sqrt (gT g) * exp (- 417000000 / (avogadro * boltzmann * gT g)).
(** oxidation and gasification of tar, aggregation of soot (BROWN) *)
Definition brownOxid (g : gas) (n0 : R) : R := n0 * (conc g O2 * molarMass O2) * arrhenius 677000 52300000 (gT g).
Definition brownGasify (g : gas) (n0 : R) : R := n0 * arrhenius 97700000000 286900000 (gT g).
Definition brownAggregate (g : gas) (M0 M1 : R) : R :=
  2 * 3 * Rpower (6 * massC / (piC * sootDensity)) (1 / 6) * sqrt (6 * boltzmann * gT g / sootDensity)
  * pow0 (M1 / massC) (1 / 6) * pow0 M0 (11 / 6).

(** the user's call setState with these data *)
Definition setTo (g : gas) (soot tar : list R) : action (N:=XR) :=
  ASet (Fin (gT g)) (Fin (gP g)) (Fin (gRho g)) (Fin (gMu g)) (map Fin (gasVec (gY g))) (map Fin (pahVec (gPah g)))
    (map Fin soot) (Z.of_nat (length soot)) (map Fin tar) (Z.of_nat (length tar)) (Fin (gCMin g)).
