(** Oxidation mechanisms: src/oxidationModels *)
From Coq Require Import ZArith List Bool.
From Verif Require Import Num Defs State Nucl Growth.
Import ListNotations.
Local Open Scope num_scope.

Section Oxid.
Context {N : Num}.

(** class oxidationModel, oxidationModel.h 18-27 *)
Record oxidObj := mkOxid { ox_class : oxidationMech; ox_mech : oxidationMech; ox_ratios : list num }.

(** base constructor, oxidationModel.h 38-40 *)
Definition oxidBase : list num := ratioTable (zeros gasSize) [(C_, nZ 1)].

(** constructors oxidationModel_X.cc 8-28 (MB: only the uncommented lines),
    oxidationModel_NONE.h 30-33 *)
Definition oxidRatios (c : oxidationMech) : list num :=
  match c with
  | O_NONE => ratioTable oxidBase [(C_, nZ 1)]
  | O_LL | O_FAIR | O_AJ_RED | O_BROWN => ratioTable oxidBase [(CO, nZ 1); (O2, nlit (-5) (-1)); (C_, nZ (-1))]
  | O_LEE_NEOH | O_NSC_NEOH | O_OPTJ | O_OPTG =>
      ratioTable oxidBase [(CO, nZ 2); (H_, nZ 1); (OH, nZ (-1)); (O2, nlit (-5) (-1)); (C_, nZ (-2))]
  | O_MB => ratioTable oxidBase [(H_, nZ 1); (OH, nZ (-1)); (CO, nZ 1); (C_, nZ (-1))]
  | O_HACA => ratioTable oxidBase [(O2, nZ (-1)); (OH, nZ (-1)); (H_, nZ 1); (CO, nZ 3); (C_, nZ (-3))]
  | O_size => oxidBase
  end.
(** [mechType] is the class, except oxidationModel_FAIR.cc 15, which sets LL *)
Definition oxidTag (c : oxidationMech) : oxidationMech :=
  match c with O_FAIR => O_LL | _ => c end.
Definition newOxid (c : oxidationMech) : oxidObj := mkOxid c (oxidTag c) (oxidRatios c).

(** oxidationModel_LL.cc 32-37 *)
Definition oxidLL (s : state) : res num :=
  c <- getGasSpC s O2 ;;
  Ok (nlit 1 4 * nsqrt (T s) * nexp (nZ (-19680) / T s) * c * MWof C_).

(** oxidationModel_FAIR.cc 32-37 (the exponent is positive there) *)
Definition oxidFAIR (s : state) : res num :=
  c <- getGasSpC s O2 ;;
  Ok (nlit 178 2 * nsqrt (T s) * nexp (nlit 39 3 / (T s * nlit 1987 (-3))) * c).

(** the OH term shared by LEE_NEOH.cc 43-45, OPTJ.cc 44-46, OPTG.cc 44-46, HACA.cc 76-78 *)
Definition neohOH (eff : num) (s : state) : res num :=
  c <- getGasSpC s OH ;;
  Ok (eff * c * nsqrt (Rg * T s / (nZ 2 * M_PI * MWof OH)) * MWof C_).

(** oxidationModel_LEE_NEOH.cc 38-48 *)
Definition oxidLEE_NEOH (s : state) : res num :=
  p <- getGasSpP s O2 ;;
  let pO2_atm := p / nZ 101325 in
  let rO2 := nlit 1085 1 * pO2_atm / nsqrt (T s) * nexp (nlit (-1977824) (-2) / T s) / nZ 1000 in
  rOH <- neohOH (nlit 13 (-2)) s ;;
  Ok (rO2 + rOH).

(** oxidationModel_OPTJ.cc 39-49 *)
Definition oxidOPTJ (s : state) : res num :=
  p <- getGasSpP s O2 ;;
  let rO2 := nlit 798 (-3) * p / nsqrt (T s) * nexp (nlit (-21294) 0 / T s) / nZ 1000 in
  rOH <- neohOH (nlit 15 (-2)) s ;;
  Ok (rO2 + rOH).

(** oxidationModel_OPTG.cc 39-49 *)
Definition oxidOPTG (s : state) : res num :=
  p <- getGasSpP s O2 ;;
  let rO2 := nlit 158 (-1) * p / nsqrt (T s) * nexp (nlit (-23450) 0 / T s) / nZ 1000 in
  rOH <- neohOH (nlit 1 (-1)) s ;;
  Ok (rO2 + rOH).

(** oxidationModel_NSC_NEOH.cc 39-55 *)
Definition oxidNSC_NEOH (s : state) : res num :=
  p <- getGasSpP s O2 ;;
  q <- getGasSpP s OH ;;
  let pO2_atm := p / nZ 101325 in
  let pOH_atm := q / nZ 101325 in
  let kA := nZ 20 * nexp (nZ (-15098) / T s) in
  let kB := nlit 446 (-5) * nexp (nZ (-7650) / T s) in
  let kT := nlit 151 3 * nexp (nZ (-48817) / T s) in
  let kz := nlit 213 (-1) * nexp (nZ 2063 / T s) in
  let x := nZ 1 / (nZ 1 + kT / (kB * pO2_atm)) in
  let NSC_rate := kA * pO2_atm * x / (nZ 1 + kz * pO2_atm) + kB * pO2_atm * (nZ 1 - x) in
  let rO2 := NSC_rate * rhoSoot in
  let rOH := nZ 1290 * nlit 13 (-2) * pOH_atm / nsqrt (T s) in
  Ok (rO2 + rOH).

(** oxidationModel_MB.cc 43-60 (M0, M1 are read and unused) *)
Definition oxidMB (v : smView) (s : state) : res num :=
  _ <- getM01 v s ;;
  c <- getGasSpC s OH ;;
  Ok (nlit 42325 (-4) * c * nsqrt (T s)).

(** oxidationModel_HACA.cc 34-80 *)
Definition oxidHACA (v : smView) (s : state) : res num :=
  ' (M0, M1) <- getM01 v s ;;
  ' (fR4, fR5, chi_S) <- hacaSites s ;;
  let rxns_s := fR5 * hacaAlpha s M0 M1 * chi_S * nlit 1 4 in
  let RO2 := nZ 2 * rxns_s * MWof C_ / Na in
  ROH <- neohOH (nlit 13 (-2)) s ;;
  Ok (RO2 + ROH).

(** oxidationModel_AJ_RED.cc 32-36 *)
Definition oxidAJ_RED (s : state) : res num :=
  p <- getGasSpP s O2 ;; q <- getGasSpP s OH ;;
  Ok (nZ 1 / nsqrt (T s) *
      (nlit 192 (-5) * p * nexp (nlit (-116) 3 / (Rg * T s)) + nlit 293 (-5) * q)).

(** oxidationModel_BROWN.cc 27-33 *)
Definition oxidBROWN (s : state) : res num :=
  let A_OC := nlit 109 3 / nZ 101325 in
  let E_OC := nlit 1645 5 in
  p <- getGasSpP s O2 ;;
  Ok (p / nsqrt (T s) * A_OC * nexp (- E_OC / (Rg * T s))).

(** virtual dispatch of getOxidationSootRate; NONE: oxidationModel_NONE.h 24 *)
Definition oxidRate (o : oxidObj) (v : smView) (s : state) : res num :=
  match ox_class o with
  | O_NONE | O_size => Ok (nZ 0)
  | O_LL => oxidLL s
  | O_LEE_NEOH => oxidLEE_NEOH s
  | O_MB => oxidMB v s
  | O_FAIR => oxidFAIR s
  | O_NSC_NEOH => oxidNSC_NEOH s
  | O_HACA => oxidHACA v s
  | O_AJ_RED => oxidAJ_RED s
  | O_BROWN => oxidBROWN s
  | O_OPTJ => oxidOPTJ s
  | O_OPTG => oxidOPTG s
  end.

(** oxidationModel.cc 16-26 *)
Definition getOxidationGasRates (o : oxidObj) (mdot : num) (acc : list num) : list num :=
  addGasRates (ox_ratios o) mdot acc.

End Oxid.
