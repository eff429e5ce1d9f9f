(** Tar mechanisms: src/tarModels *)
From Coq Require Import ZArith List Bool.
From Verif Require Import Num Defs State.
Import ListNotations.
Local Open Scope num_scope.

Section Tar.
Context {N : Num}.

(** class tarModel, tarModel.h 18-32 (the ratio vectors are never read) *)
Record tarObj := mkTar { ta_class : tarMech; ta_mech : tarMech }.
Definition newTar (c : tarMech) : tarObj := mkTar c c.

(** C++ integer division of two int literals, converted to double *)
Definition idiv (a b : Z) : num := nZ (Z.quot a b).

(** tarModel_AJ_RED.cc 36-68.  [1/6], [1/3], [50/128], [14/92] are integer
    divisions in the source. *)
Definition crackAJ_RED (s : state) : res num :=
  N0 <- vget (tarVar s) 0 ;;
  let Cl := if ngtb N0 (nZ 0) then nlog10 N0 else nZ 0 in
  let k1 := nlit 1 7 * nexp (nlit (-1) 8 / (Rg * T s)) in
  let k2 := nlit 1 8 * nexp (nlit (-1) 8 / (Rg * T s)) in
  let k3 := nlit 158 10 * nexp (nlit (-324) 6 / (Rg * T s)) in
  let k4 := nlit 104 10 * nexp (nlit (-247) 6 / (Rg * T s)) in
  let k5 := nlit 44 7 * nexp (nlit (-22) 7 / (Rg * T s)) in
  let xphe := idiv 1 6 * ntanh (nlit 573 (-2) - nlit 384 (-5) * T s - nlit 159 (-3) * Cl)
              - nlit 218 (-3) + nlit 277 (-4) * Cl in
  let xnapth := nlit 5 (-1) * ntanh (nlit (-198) (-2) + nlit 618 (-6) * T s + nlit 124 (-3) * Cl
                                     - nlit 285 (-5) * Cl * Cl + nlit 414 (-9) * T s * T s
                                     - nlit 497 (-7) * T s * Cl)
                - nlit 576 (-3) + nlit 233 (-6) * T s - nlit 169 (-9) * T s * T s in
  let xtol := idiv 1 3 * ntanh (nlit 173 (-1) - nlit 869 (-5) * T s
                                + Cl * (nlit (-108) (-2) + nlit 365 (-6) * T s + nlit 199 (-4) * Cl))
              + nlit 265 (-6) * T s + Cl * (nlit (-111) (-6) * Cl - nlit 932 (-8) * T s) in
  let xben := nZ 1 - xphe - xnapth - xtol in
  cH2 <- getGasSpC s H2 ;;
  let r1 := nlit 311 (-1) / nZ 94 * k1 * xphe in
  let r2 := k2 * xphe in
  let r3 := idiv 50 128 * k3 * xnapth * npow cH2 (nlit 4 (-1)) in
  let r4 := idiv 14 92 * k4 * xtol * npow cH2 (nlit 5 (-1)) in
  let r5 := k5 * xben in
  Ok (N0 * (r1 + r2 + r3 + r4 + r5)).

(** tarModel_AJ_RED.cc 70-90 *)
Definition depoAJ_RED (s : state) : res num :=
  N0 <- vget (tarVar s) 0 ;;
  M1 <- vget (sootVar s) 1 ;; M0 <- vget (sootVar s) 0 ;;
  let eps := nlit 22 (-1) in
  let msoot := M1 / M0 in
  let d_a := nsqrt (nlit 1395 (-13) * nZ 3) in
  let dsoot := npow (nZ 6 * msoot / (M_PI * rhoSoot)) onethird in
  let dtar := d_a * nsqrt (nZ 2 * mtar s / (nZ 3 * nlit 12011 (-3))) in
  let Bts :=
    if ngtb M1 (nZ 0) then
      let muTS := mtar s / Na * msoot / (mtar s / Na + msoot) in
      npow (dsoot + dtar) (nZ 2) * nsqrt (M_PI * kb * T s / (nZ 2 * muTS))
    else nZ 0 in
  Ok (eps * Bts * N0 * M0).

(** tarModel_AJ_RED.cc 92-100 *)
Definition surfAJ_RED (s : state) : res num :=
  pCO2 <- getGasSpP s CO2 ;; pH2O <- getGasSpP s H2O ;;
  let term1 := nlit 192 (-5) * nsqrt pCO2 * T s * T s * nexp (nlit (-555) 4 / (Rg * T s)) in
  let term2 := nlit 192 (-5) * npow pH2O (nlit 121 (-2)) / nsqrt (T s) * nexp (nlit (-417) 6 / (Rg * T s)) in
  Ok (term1 + term2).

(** tarModel_BROWN.cc 21-31, 33-41 *)
Definition crackBROWN (s : state) : res num :=
  let A_OT := nlit 677 3 in
  let E_OT := nlit 523 5 in
  c <- getGasSpC s O2 ;;
  let rho_O2 := c * MWof O2 in
  t0 <- vget (tarVar s) 0 ;;
  Ok (t0 * rho_O2 * A_OT * nexp (- E_OT / (Rg * T s))).
Definition surfBROWN (s : state) : res num :=
  let A_GT := nlit 977 8 in
  let E_GT := nlit 2869 5 in
  t0 <- vget (tarVar s) 0 ;;
  Ok (t0 * A_GT * nexp (- E_GT / (Rg * T s))).

(** virtual dispatch; NONE: tarModel_NONE.h 25-27, BROWN deposition: tarModel_BROWN.h 27 *)
Definition crackRate (t : tarObj) (s : state) : res num :=
  match ta_class t with T_AJ_RED => crackAJ_RED s | T_BROWN => crackBROWN s | T_NONE | T_size => Ok (nZ 0) end.
Definition depoRate (t : tarObj) (s : state) : res num :=
  match ta_class t with T_AJ_RED => depoAJ_RED s | _ => Ok (nZ 0) end.
Definition surfRate (t : tarObj) (s : state) : res num :=
  match ta_class t with T_AJ_RED => surfAJ_RED s | T_BROWN => surfBROWN s | T_NONE | T_size => Ok (nZ 0) end.

End Tar.
