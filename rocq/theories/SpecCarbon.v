(** Specification vocabulary for the element budget with PAH nucleation (C69). *)
From Coq Require Import ZArith List Reals.
From Verif Require Import Num Defs State SootModel XR SpecChem SpecCoag SpecValid SpecRates SpecGas SpecPah SpecPsd.
Import ListNotations.
Local Open Scope R_scope.

(** kmol of an element carried by the PAH mass rates [p] *)
Definition pahElement (atoms : pahSp -> Z) (p : pahSp -> R) : R := pahSum (fun sp => p sp / pahMolarMass sp * IZR (atoms sp)).
(** kmol of an element in the PAH molecules consumed *)
Definition consumed (atoms : pahSp -> Z) (g : gas) : R := pahSum (fun sp => pahLoss g sp * IZR (atoms sp)) / avogadro.
(** the sources of gas species and PAH and the soot mass source [y] (carbon), when [J]
    particles form: oxygen is conserved; of the carbon taken from the PAH half is lost,
    of the hydrogen all but what the nuclei release *)
Definition pahBudget (m : model (N:=XR)) (g : gas) (y : R) : Prop :=
  exists q p J, holdsGas (gases m) q /\ pahs m = map (fun sp => Fin (p sp)) allPah /\
    (forall sp, p sp = - (pahLoss g sp * pahMass sp)) /\ 0 < J <= pahTotal g / 4 /\
    element atomsO q = 0 /\
    element atomsC q + y / massC + pahElement pahAtomsC p = - (1 / 2) * consumed pahAtomsC g + J * (gCMin g / pahTotal g) / avogadro /\
    element atomsH q + pahElement pahAtomsH p = - consumed pahAtomsH g + J * (2 * meanH g) / avogadro.
(** less carbon and less hydrogen than before: at least half of the hydrogen taken from
    the PAH vanishes, and carbon vanishes *)
Definition loses (m : model (N:=XR)) (g : gas) (y : R) : Prop :=
  exists q p, holdsGas (gases m) q /\ pahs m = map (fun sp => Fin (p sp)) allPah /\
    element atomsH q + pahElement pahAtomsH p <= - (1 / 2) * consumed pahAtomsH g /\ 0 < consumed pahAtomsH g /\
    (gCMin g < 2 * avogadro * consumed pahAtomsC g -> element atomsC q + y / massC + pahElement pahAtomsC p < 0).
