(** Surface growth mechanisms: src/growthModels *)
From Coq Require Import ZArith List Bool.
From Verif Require Import Num Defs State Nucl.
Import ListNotations.
Local Open Scope num_scope.

Section Growth.
Context {N : Num}.

(** class growthModel, growthModel.h 17-26 *)
Record growObj := mkGrow { gr_class : growthMech; gr_mech : growthMech; gr_ratios : list num }.

(** constructors: growthModel_X.cc 9-22, growthModel_NONE.h 28-32 *)
Definition growRatios (c : growthMech) : list num :=
  match c with
  | G_NONE => ratioTable (zeros gasSize) [(C_, nZ 1)]
  | G_HACA => ratioTable (zeros gasSize)
      [(O2, nZ 0); (OH, nZ (-1)); (H_, nZ (-1)); (H2, nZ 1); (H2O, nZ 1); (C2H2, nZ (-1)); (CO, nZ 0); (C_, nZ 2)]
  | G_LL | G_LIN | G_MB | G_FAIR => ratioTable (zeros gasSize) [(C2H2, nZ (-1)); (H2, nZ 1); (C_, nZ 2)]
  | G_size => zeros gasSize
  end.
Definition newGrow (c : growthMech) : growObj := mkGrow c c (growRatios c).

(** What a mechanism reads of the soot model through its back pointer [SM]:
    [psdMechType], [nsoot], [mBins]. *)
Record smView := mkView { sv_psd : psdMech; sv_nsoot : nat; sv_mBins : list num }.

(** sootModel_SECT::get_M0_sectional and get_M1_sectional, sootModel_SECT.cc 327-347;
    on other classes the base versions throw (sootModel.h 60-67) *)
Definition get_M0_sectional (v : smView) (s : state) : res num :=
  match sv_psd v with
  | P_SECT => foldM (fun acc k => x <- vget (sootVar s) k ;; Ok (acc + x)) (seq 0 (sv_nsoot v)) (nZ 0)
  | _ => Throw ERunM0
  end.
Definition get_M1_sectional (v : smView) (s : state) : res num :=
  match sv_psd v with
  | P_SECT => foldM (fun acc k => x <- vget (sootVar s) k ;; m <- vget (sv_mBins v) k ;; Ok (acc + x * m))
                    (seq 0 (sv_nsoot v)) (nZ 0)
  | _ => Throw ERunM0
  end.

(** the block "if (SM->psdMechType == SECT) ... else ..." shared by
    growthModel_LL.cc 40-47, _FAIR.cc 40-47, _MB.cc 41-48, oxidationModel_HACA.cc 38-45, _MB.cc 47-54 *)
Definition getM01 (v : smView) (s : state) : res (num * num) :=
  match sv_psd v with
  | P_SECT => m0 <- get_M0_sectional v s ;; m1 <- get_M1_sectional v s ;; Ok (m0, m1)
  | _ => m0 <- vget (sootVar s) 0 ;; m1 <- vget (sootVar s) 1 ;; Ok (m0, m1)
  end.

(** area: growthModel_LL.cc 35, 49-50 (same lines in FAIR, MB) *)
Definition growArea (M0 M1 : num) : num :=
  if ngtb M0 (nZ 0)
  then M_PI * npow (nZ 6 / (M_PI * rhoSoot) * M1 / M0) (nZ 2 / nZ 3) * M0
  else nZ 0.

(** growthModel_LL.cc 33-57 *)
Definition growLL (v : smView) (s : state) : res num :=
  ' (M0, M1) <- getM01 v s ;;
  let A := growArea M0 M1 in
  if ngtb A (nZ 0) then
    c <- getGasSpC s C2H2 ;;
    Ok (nlit 6 2 * nexp (nZ (-12100) / T s) * c / nsqrt A * nZ 2 * MWof C_)
  else Ok (nZ 0).

(** growthModel_LIN.cc 31-36 *)
Definition growLIN (s : state) : res num :=
  c <- getGasSpC s C2H2 ;;
  Ok (nZ 750 * nexp (nZ (-12100) / T s) * c * nZ 2 * MWof C_).

(** growthModel_FAIR.cc 33-57 *)
Definition growFAIR (v : smView) (s : state) : res num :=
  ' (M0, M1) <- getM01 v s ;;
  let A := growArea M0 M1 in
  if ngtb A (nZ 0) then
    c <- getGasSpC s C2H2 ;;
    Ok (nlit 5 2 * nexp (nlit (-24) 3 / (T s * nlit 1987 (-3))) * c * MWof C_)
  else Ok (nZ 0).

(** growthModel_MB.cc 34-60 *)
Definition growMB (v : smView) (s : state) : res num :=
  ' (M0, M1) <- getM01 v s ;;
  let A := growArea M0 M1 in
  if ngtb A (nZ 0) then
    c <- getGasSpC s C2H2 ;;
    Ok (nZ 430 * npow c (nZ 2 / nZ 3) * nexp (nZ (-12100) / T s))
  else Ok (nZ 0).

(** ** HACA, shared by growthModel_HACA.cc 79-102 and oxidationModel_HACA.cc 49-72 *)

(** alpha: the lines from [a_param] to [if (alpha < 0) alpha=1.0] *)
Definition hacaAlpha (s : state) (M0 M1 : num) : num :=
  let a_param := nlit 33167 (-3) - nlit 154 (-4) * T s in
  let b_param := nlit (-25786) (-4) + nlit 112 (-5) * T s in
  let alpha := if ngtb M0 (nZ 0) then ntanh (a_param / nlog10 (M1 / M0) + b_param) else nZ 1 in
  if nltb alpha (nZ 0) then nZ 1 else alpha.

(** fR4, fR5 and chi_S; RT, the elementary rates and the site density *)
Definition hacaSites (s : state) : res (num * num * num) :=
  let RT := nlit 19872036 (-10) * T s in
  let chi_CH := nlit 23 14 in
  cH <- getGasSpC s H_ ;; cH2 <- getGasSpC s H2 ;; cOH <- getGasSpC s OH ;; cH2O <- getGasSpC s H2O ;;
  cC2H2 <- getGasSpC s C2H2 ;; cO2 <- getGasSpC s O2 ;;
  let fR1 := nlit 42 12 * nexp (nZ (-13) / RT) * cH / nZ 1000 in
  let rR1 := nlit 39 11 * nexp (nZ (-11) / RT) * cH2 / nZ 1000 in
  let fR2 := nlit 1 10 * npow (T s) (nlit 734 (-3)) * nexp (nlit (-143) (-2) / RT) * cOH / nZ 1000 in
  let rR2 := nlit 368 6 * npow (T s) (nlit 1139 (-3)) * nexp (nlit (-171) (-1) / RT) * cH2O / nZ 1000 in
  let fR3 := nlit 2 13 * cH / nZ 1000 in
  let fR4 := nlit 8 7 * npow (T s) (nlit 156 (-2)) * nexp (nlit (-38) (-1) / RT) * cC2H2 / nZ 1000 in
  let fR5 := nlit 22 11 * nexp (nlit (-75) (-1) / RT) * cO2 / nZ 1000 in
  let denom := rR1 + rR2 + fR3 + fR4 + fR5 in
  let chi_S := if neqb denom (nZ 0) then nZ 0 else nZ 2 * chi_CH * (fR1 + fR2) / denom in
  Ok (fR4, fR5, chi_S).

(** growthModel_HACA.cc 63-75: in the SECT branch the loop runs to [state.nsoot]
    (an [int] compared as [size_t]: a negative value gives a huge bound, so the
    reads leave the vector), using [SM->mBins] *)
Definition hacaM01 (v : smView) (s : state) : res (num * num) :=
  m0 <- vget (sootVar s) 0 ;; m1 <- vget (sootVar s) 1 ;;
  match sv_psd v with
  | P_SECT =>
      if (st_nsoot s <? 0)%Z then UB OutOfBounds else
      foldM (fun acc k =>
               x <- vget (sootVar s) k ;; m <- vget (sv_mBins v) k ;;
               Ok (fst acc + x, snd acc + x * m))
            (seq 0 (Z.to_nat (st_nsoot s))) (nZ 0, nZ 0)
  | _ => Ok (m0, m1)
  end.

(** growthModel_HACA.cc 63-106 *)
Definition growHACA (v : smView) (s : state) : res num :=
  ' (M0, M1) <- hacaM01 v s ;;
  ' (fR4, fR5, chi_S) <- hacaSites s ;;
  let rxns_s := fR4 * hacaAlpha s M0 M1 * chi_S * nlit 1 4 in
  Ok (nZ 2 * rxns_s * MWof C_ / Na).

(** virtual dispatch of getGrowthSootRate; NONE: growthModel_NONE.h 24 *)
Definition growRate (g : growObj) (v : smView) (s : state) : res num :=
  match gr_class g with
  | G_NONE | G_size => Ok (nZ 0)
  | G_LL => growLL v s
  | G_LIN => growLIN s
  | G_HACA => growHACA v s
  | G_MB => growMB v s
  | G_FAIR => growFAIR v s
  end.

(** growthModel.cc 16-27 *)
Definition getGrowthGasRates (g : growObj) (mdot : num) (acc : list num) : list num :=
  addGasRates (gr_ratios g) mdot acc.

End Growth.
