(** Nucleation mechanisms: src/nucleationModels *)
From Coq Require Import ZArith List Bool.
From Verif Require Import Num Defs State Coag.
Import ListNotations.
Local Open Scope num_scope.

Section Nucl.
Context {N : Num}.

(** class nucleationModel, nucleationModel.h 18-30; struct dimerStruct, sootDefs.h 172-176 *)
Record nuclObj := mkNucl {
  nu_class : nucleationMech;
  nu_mech : nucleationMech;
  mDimer : num; nDimer : num; nDotD : num;
  nu_ratios : list num;      (** nucleationRxnRatios *)
  nu_pah : list num }.       (** nucleationPahRxnRates *)

(** a table of reaction ratios: base 0, then the listed assignments in order *)
Definition ratioTable (base : list num) (l : list (gasSp * num)) : list num :=
  fold_left (fun v p => upd v (gasIdx (fst p)) (snd p)) l base.

(** constructors nucleationModel_X: X.cc 9-16, nucleationModel_NONE.h 28-31,
    nucleationModel_PAH.cc 10-17 *)
Definition nuclRatios (c : nucleationMech) : list num :=
  match c with
  | N_NONE => ratioTable (zeros gasSize) [(C_, nZ 1)]
  | N_LINA1 => ratioTable (zeros gasSize) [(C6H6, nZ (-1)); (H2, nZ 3); (C_, nZ 6)]
  | N_PAH | N_size => zeros gasSize
  | N_LL | N_LIN | N_MB | N_FAIR | N_AJ_RED | N_BROWN =>
      ratioTable (zeros gasSize) [(C2H2, nZ (-1)); (H2, nZ 1); (C_, nZ 2)]
  end.
Definition newNucl (c : nucleationMech) : nuclObj :=
  mkNucl c c (nZ 0) (nZ 0) (nZ 0) (nuclRatios c) (zeros pahSize).

(** shared by the three get...GasRates functions: nucleationModel.cc 16-26,
    growthModel.cc 16-26, oxidationModel.cc 16-26.  The ratio vector has 11
    entries in every object (a public member nobody resizes), so
    its reads are written with [nth]; the result is added to [acc]. *)
Definition addGasRates (ratios : list num) (mdot : num) (acc : list num) : list num :=
  map (fun i =>
         let a := nth i acc (nZ 0) in
         if Nat.eqb i (gasIdx C_) then a
         else a + mdot * nth i ratios (nZ 0) * nth i gasSpMW (nZ 0) /
                  (nth (gasIdx C_) ratios (nZ 0) * MWof C_))
      (seq 0 gasSize).
Definition getNucleationGasRates (nu : nuclObj) (mdot : num) (acc : list num) : list num :=
  addGasRates (nu_ratios nu) mdot acc.

(** getNucleationSootRate of the mechanisms that do not touch the state *)
(** nucleationModel_LL.cc 32-38 *)
Definition nuclLL (s : state) : res num :=
  c <- getGasSpC s C2H2 ;;
  Ok (nlit 1 4 * nexp (nZ (-21100) / T s) * c * nZ 2 * Na / cMin s).
(** nucleationModel_LIN.cc 32-37 *)
Definition nuclLIN (s : state) : res num :=
  c <- getGasSpC s C2H2 ;;
  Ok (nlit 63 2 * nexp (nZ (-21100) / T s) * c * nZ 2 * Na / cMin s).
(** nucleationModel_LINA1.cc 35-40 *)
Definition nuclLINA1 (s : state) : res num :=
  c <- getGasSpC s C6H6 ;;
  Ok (nlit 75 3 * nexp (nZ (-21100) / T s) * c * nZ 6 * Na / cMin s).
(** nucleationModel_MB.cc 31-35 *)
Definition nuclMB (s : state) : res num :=
  c <- getGasSpC s C2H2 ;;
  Ok (nZ 54 * Na * c * nexp (nZ (-21000) / T s)).
(** nucleationModel_FAIR.cc 33-38 *)
Definition nuclFAIR (s : state) : res num :=
  c <- getGasSpC s C2H2 ;;
  Ok (nlit 135 4 * nexp (nlit (-41) 3 / (T s * nlit 1987 (-3))) * c * nZ 2 * Na / cMin s).
(** nucleationModel_AJ_RED.cc 32-47 *)
Definition nuclAJ_RED (s : state) : res num :=
  let eps := nlit 22 (-1) in
  let da := nlit 1395 (-13) * nsqrt (nZ 3) in
  let dtar := da * nsqrt (nZ 2 * mtar s / (nZ 3 * nlit 12011 (-3))) in
  let Bt := dtar * dtar * nsqrt (nZ 8 * M_PI * kb * T s / mtar s / Na) in
  t0 <- vget (tarVar s) 0 ;;
  Ok (eps * Bt * t0 * t0 * nZ 2 * Na / cMin s).
(** nucleationModel_BROWN.cc 27-35 *)
Definition nuclBROWN (s : state) : res num :=
  let A_FC := nlit 502 6 in
  let E_FC := nlit 1989 5 in
  t0 <- vget (tarVar s) 0 ;;
  Ok (t0 * A_FC * nexp (- E_FC / (Rg * T s)) / MWof C_ * Na / cMin s).

(** ** PAH nucleation, nucleationModel_PAH.cc 47-124 *)

(** preFac, 60-61 *)
Definition pahPreFac (s : state) : num :=
  nZ 4 * nsqrt (M_PI * kb * T s) * npow (nZ 6 / (M_PI * rhoSoot)) twothird.

(** Ni and ndoti of one species, 66-67 *)
Definition pahNdot (s : state) (sp : pahSp) : res num :=
  y <- vget (yPah s) (pahIdx sp) ;;
  let Ni := rhoGas s * y / pahMW sp * Na in
  Ok (pahGamma sp * pahPreFac s * npow (pahMW sp / Na) (nZ 1 / nZ 6) * Ni * Ni).

(** accumulators of the species loop, 64-75 *)
Record pahAcc := mkAcc { a_nDotD : num; a_mDimer : num; a_cMin : num; a_hMin : num; a_rates : list num }.
Definition pahStep (s : state) (a : pahAcc) (sp : pahSp) : res pahAcc :=
  nd <- pahNdot s sp ;;
  Ok (mkAcc (a_nDotD a + nlit 5 (-1) * nd)
            (a_mDimer a + nd * nZ (pahNC sp) * MWof C_ / Na)
            (a_cMin a + nd * nZ 2 * nZ (pahNC sp))
            (a_hMin a + nd * nZ 2 * nZ (pahNH sp))
            (a_rates a ++ [ - nd * pahMW sp / Na ])).
Definition pahLoop (s : state) : res pahAcc :=
  foldM (pahStep s) allPah (mkAcc (nZ 0) (nZ 0) (cMin s) (nZ 0) []).

(** [getNucleationSootRate] of class PAH.  [coll st m] is the value of
    [I_beta_DS] (100-107): the soot model's collision function or the sum over
    abscissas (see [collSum]); besides the number it returns the data that the
    soot model's virtual function stores as a side effect. *)
Definition nuclPAH (coll : state -> num -> res (num * list num)) (nu : nuclObj) (s : state)
    : res (num * nuclObj * state * list num) :=
  a <- pahLoop s ;;
  let pos := ngtb (a_nDotD a) (nZ 0) in
  let nrm x := if pos then x / (nZ 2 * a_nDotD a) else x in
  let mD := nrm (a_mDimer a) in
  let cM := nrm (a_cMin a) in
  let hM := nrm (a_hMin a) in
  let s := with_cMin s cM in
  let ratios := ratioTable (nu_ratios nu) [(C_, nZ 1); (H2, hM / nZ 2 / cM)] in
  let beta_DD := pahPreFac s * npow mD (nZ 1 / nZ 6) in
  ' (Ib, eff) <- coll s mD ;;
  let nD := if pos && ngtb mD (nZ 0)
            then nZ 2 * a_nDotD a / (Ib + nsqrt (Ib * Ib + nZ 4 * beta_DD * a_nDotD a))
            else nZ 0 in
  let nu' := mkNucl (nu_class nu) (nu_mech nu) mD nD (a_nDotD a) ratios (a_rates a) in
  Ok (nlit 5 (-1) * beta_DD * nD * nD, nu', s, eff).

(** the sum of nucleationModel_PAH.cc 106-107 *)
Definition collSum (co : coagObj) (s : state) (mD : num) : res (num * list num) :=
  Ib <- foldM (fun acc i =>
          w <- vget (wts s) i ;; x <- vget (absc s) i ;;
          Ok (acc + nabs w * coagRate co s mD x)) (seq 0 (length (absc s))) (nZ 0) ;;
  Ok (Ib, []).

(** virtual dispatch of getNucleationSootRate; NONE: nucleationModel_NONE.h 24.
    The list is the stored side effect of the collision function, if called. *)
Definition nuclRate (coll : state -> num -> res (num * list num)) (nu : nuclObj) (s : state)
    : res (num * nuclObj * state * option (list num)) :=
  let pure r := x <- r ;; Ok (x, nu, s, None) in
  match nu_class nu with
  | N_NONE | N_size => Ok (nZ 0, nu, s, None)
  | N_LL => pure (nuclLL s)
  | N_LIN => pure (nuclLIN s)
  | N_LINA1 => pure (nuclLINA1 s)
  | N_MB => pure (nuclMB s)
  | N_FAIR => pure (nuclFAIR s)
  | N_AJ_RED => pure (nuclAJ_RED s)
  | N_BROWN => pure (nuclBROWN s)
  | N_PAH => ' (r, nu', s', e) <- nuclPAH coll nu s ;; Ok (r, nu', s', Some e)
  end.

End Nucl.
