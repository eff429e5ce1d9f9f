(** Specification vocabulary for what a call leaves alone (C60). *)
From Coq Require Import ZArith List Bool.
From Verif Require Import Num Defs State Coag Nucl Growth Oxid Tar SootModel Calls.
Import ListNotations.

Section SpecFrame.
Context {N : Num}.

(** of the state only weights and abscissas (MONO and QMOM), and cMin (PAH), may change *)
Definition keepsState (m : model (N:=N)) (s s' : state) : Prop :=
  s' = with_cMin (with_wa s (wts s') (absc s')) (cMin s') /\
  (nu_class (sm_nucl m) <> N_PAH -> cMin s' = cMin s) /\
  (sm_psd m <> P_MONO -> sm_psd m <> P_QMOM -> wts s' = wts s /\ absc s' = absc s).
(** growth factor of the sections, 0 for other models *)
Definition binFactor (m : model (N:=N)) : num := match sm_priv m with PrivSect F _ => F | _ => nZ 0%Z end.
(** the configuration, and the sources the mechanisms do not concern, stay *)
Definition keepsModel (m m' : model (N:=N)) : Prop :=
  sm_psd m' = sm_psd m /\ sm_nsoot m' = sm_nsoot m /\ sm_Ntar m' = sm_Ntar m /\ sm_grow m' = sm_grow m /\ sm_oxid m' = sm_oxid m /\
  sm_coag m' = sm_coag m /\ sm_tar m' = sm_tar m /\ sm_newed m' = sm_newed m /\ sm_mBins m' = sm_mBins m /\ binFactor m' = binFactor m /\
  nu_class (sm_nucl m') = nu_class (sm_nucl m) /\ nu_mech (sm_nucl m') = nu_mech (sm_nucl m) /\
  (nu_class (sm_nucl m) <> N_PAH -> sm_nucl m' = sm_nucl m) /\
  (nu_mech (sm_nucl m) <> N_PAH -> pahSources (sm_sources m') = pahSources (sm_sources m)) /\
  (sm_psd m <> P_MONO \/ ta_mech (sm_tar m) = T_NONE -> tarSources (sm_sources m') = tarSources (sm_sources m)) /\
  tl (tarSources (sm_sources m')) = tl (tarSources (sm_sources m)) /\
  tarGasSources (sm_sources m') = tarGasSources (sm_sources m).
(** made by one of the two constructors *)
Definition constructed (m : model (N:=N)) : Prop :=
  (exists p ns nu gr ox co Ntar ta F c, constructEnum p ns nu gr ox co Ntar ta F c = Ok m) \/
  (exists p ns nu gr ox co Ntar ta F c, constructPtr p ns nu gr ox co Ntar ta F c = Ok m).
End SpecFrame.
