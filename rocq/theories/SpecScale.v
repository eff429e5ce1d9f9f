(** Specification vocabulary for the dependence of the sources on the amount of soot (C65). *)
From Coq Require Import ZArith List Reals.
From Verif Require Import Num Defs State Growth Nucl Oxid Coag SootModel XR SpecChem SpecValid SpecRates SpecGas SpecPsd SpecSect.
Import ListNotations.
Local Open Scope R_scope.

(** [a] times as much of the same soot *)
Definition scaled (a : R) (soot : list R) : list R := map (Rmult a) soot.
(** growth is proportional to the surface, with LL to its square root *)
Definition growOrder (gr : growthMech) (a : R) : R := match gr with G_LL => sqrt a | _ => a end.
(** the number of particles vanishes in no model whose weights would then be those of the call
    before (C23); positive moments for interpolation *)
Definition someSoot (p : psdMech) (soot : list R) : Prop :=
  match p with P_MONO => 0 < el soot 0 | P_MOMIC => forall x, In x soot -> 0 < x | _ => True end.
(** what nucleation alone gives: [J] particles of the smallest mass, or their mass in the first bin *)
Definition momA (k : mechs) (g : gas) (j : nat) : R := Jnuc k g * nucMass g ^ j.
Definition sectA (k : mechs) (g : gas) (b : list R) (j : nat) : R := if Nat.eqb j 0 then Jnuc k g * nucMass g / el b 0 else 0.
Definition nuclSource (p : psdMech) (k : mechs) (g : gas) (b : list R) : nat -> R :=
  match p with P_SECT => sectA k g b | _ => momA k g end.
Definition nuclGasSource (k : mechs) (g : gas) : gasSp -> R := nuclGas (mN k) (Jnuc k g * nucMass g).
(** what one call returns for [a] times the soot: nucleation [A], growth [B], oxidation [O], coagulation [C] *)
Definition parts (k : mechs) (n : nat) (A : nat -> R) (GA : gasSp -> R) (B O C : nat -> R) (GB GO : gasSp -> R) (a : R) (m' : model (N:=XR)) : Prop :=
  soots m' = map (fun j => Fin (A j + growOrder (mG k) a * B j + a * O j + a ^ 2 * C j)) (seq 0 n) /\
  holdsGas (gases m') (fun sp => GA sp + growOrder (mG k) a * GB sp + a * GO sp).
(** a mechanism that is off contributes nothing *)
Definition offs (k : mechs) (B O C : nat -> R) (GB GO : gasSp -> R) : Prop :=
  (mG k = G_NONE -> (forall j, B j = 0) /\ forall sp, GB sp = 0) /\ (mO k = O_NONE -> (forall j, O j = 0) /\ forall sp, GO sp = 0) /\
  (mC k = C_NONE -> forall j, C j = 0).

