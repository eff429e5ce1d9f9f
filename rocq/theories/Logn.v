(** Lognormal three-moment model: src/sootModel_LOGN.cc *)
From Coq Require Import ZArith List Bool.
From Verif Require Import Num Defs State Coag Nucl Growth Oxid Tar SootModel.
Import ListNotations.
Local Open Scope num_scope.

Section Logn.
Context {N : Num}.

(** sootModel_LOGN::Mr, LOGN.cc 338-351 *)
Definition lognMr (r M0 M1 M2 : num) : num :=
  let z := nZ 0 in
  if nleb M0 z then z else
  let M0_exp := nZ 1 + nlit 5 (-1) * r * (r - nZ 3) in
  let M1_exp := r * (nZ 2 - r) in
  let M2_exp := nlit 5 (-1) * r * (r - nZ 1) in
  if (nleb M0 z && nleb M0_exp z) || (nleb M1 z && nleb M1_exp z) || (nleb M2 z && nleb M2_exp z)
  then z
  else npow M0 M0_exp * npow M1 M1_exp * npow M2 M2_exp.

(** the orders p/6 at which Mr is evaluated: [ 2.0/6.0], [-3.0/6.0], ... *)
Definition lognM (M0 M1 M2 : num) (p : Z) : num := lognMr (nZ p / nZ 6) M0 M1 M2.

(** powers of the dimer mass and the collision integrals of the first moment,
    LOGN.cc 114-134 and 197-228 *)
Definition lognIfm1 (Kfm mD M0 M1 M2 : num) : num :=
  let Mp := lognM M0 M1 M2 in
  let mD16 := npow mD (nZ 1 / nZ 6) in
  let mDn16 := npow mD (nZ (-1) / nZ 6) in
  let mDn36 := npow mD (nlit (-5) (-1)) in
  let mD26 := npow mD onethird in
  let mD46 := npow mD twothird in
  Kfm * bCoag * (M0 * mD16 + nZ 2 * Mp 2%Z * mDn16 + Mp 4%Z * mDn36 + nZ 2 * Mp (-1)%Z * mD26
                 + Mp (-3)%Z * mD46 + Mp 1%Z).
Definition lognIc1 (Kc Kcp mD M0 M1 M2 : num) : num :=
  let Mp := lognM M0 M1 M2 in
  let mD26 := npow mD onethird in
  let mDn26 := npow mD (- onethird) in
  let mDn46 := npow mD (- twothird) in
  Kc * (nZ 2 * M0 + Mp (-2)%Z * mD26 + Mp 2%Z * mDn26
        + Kcp * (M0 * mDn26 + Mp (-2)%Z + Mp 2%Z * mDn46 + Mp (-4)%Z * mD26)).
(** second moment, LOGN.cc 213-215 and 226-227 *)
Definition lognIfm2 (Kfm mD M0 M1 M2 : num) : num :=
  let Mp := lognM M0 M1 M2 in
  let mD16 := npow mD (nZ 1 / nZ 6) in
  let mDn16 := npow mD (nZ (-1) / nZ 6) in
  let mDn36 := npow mD (nlit (-5) (-1)) in
  let mD26 := npow mD onethird in
  let mD46 := npow mD twothird in
  nZ 2 * Kfm * bCoag * (M1 * mD16 + nZ 2 * Mp 8%Z * mDn16 + Mp 10%Z * mDn36 + nZ 2 * Mp 5%Z * mD26
                        + Mp 3%Z * mD46 + Mp 7%Z).
Definition lognIc2 (Kc Kcp mD M0 M1 M2 : num) : num :=
  let Mp := lognM M0 M1 M2 in
  let mD26 := npow mD onethird in
  let mDn26 := npow mD (- onethird) in
  let mDn46 := npow mD (- twothird) in
  nZ 2 * Kc * (nZ 2 * M1 + Mp 4%Z * mD26 + Mp 8%Z * mDn26
               + Kcp * (M1 * mDn26 + Mp 4%Z + Mp 8%Z * mDn46 + Mp 2%Z * mD26)).

(** sootModel_LOGN::pahSootCollisionRatePerDimer, LOGN.cc 93-139; stores nothing *)
Definition collLOGN (m : model) (s : state) (mD : num) : res (num * list num) :=
  if negb (isPAH m) then Ok (nZ 0, []) else
  M0 <- vget (sootVar s) 0 ;; M1 <- vget (sootVar s) 1 ;; M2 <- vget (sootVar s) 2 ;;
  let Ifm1 := lognIfm1 (getKfm (sm_coag m) s) mD M0 M1 M2 in
  let Ic1 := lognIc1 (getKc s) (getKcp s) mD M0 M1 M2 in
  Ok (Ifm1 * Ic1 / (Ifm1 + Ic1), []).

(** coagulation terms C0 and C2, LOGN.cc 258-297 *)
Definition lognC0fm (Kfm M0 M1 M2 : num) : num :=
  let Mp := lognM M0 M1 M2 in
  - Kfm * bCoag * (M0 * Mp 1%Z + nZ 2 * Mp 2%Z * Mp (-1)%Z + Mp 4%Z * Mp (-3)%Z).
Definition lognC2fm (Kfm M0 M1 M2 : num) : num :=
  let Mp := lognM M0 M1 M2 in
  nZ 2 * Kfm * bCoag * (M1 * Mp 7%Z + nZ 2 * Mp 8%Z * Mp 5%Z + Mp 10%Z * Mp 3%Z).
Definition lognC0c (Kc Kcp M0 M1 M2 : num) : num :=
  let Mp := lognM M0 M1 M2 in
  - Kc * (M0 * M0 + Mp 2%Z * Mp (-2)%Z + Kcp * (M0 * Mp (-2)%Z + Mp 2%Z * Mp (-4)%Z)).
Definition lognC2c (Kc Kcp M0 M1 M2 : num) : num :=
  let Mp := lognM M0 M1 M2 in
  nZ 2 * Kc * (M1 * M1 + Mp 4%Z * Mp 8%Z + Kcp * (M1 * Mp 4%Z + Mp 2%Z * Mp 8%Z)).
(** the harmonic mean with its guard, LOGN.cc 294-295 *)
Definition lognHM (a b : num) : num :=
  if ngtb a (nZ 0) || ngtb b (nZ 0) then a * b / (a + b) else nZ 0.

Definition lognCoag (c : coagObj) (s : state) (M0 M1 M2 : num) : num * num :=
  let Kfm := getKfm c s in let Kc := getKc s in let Kcp := getKcp s in
  match co_mech c with
  | C_NONE => (nZ 0, nZ 0)
  | C_FM => (lognC0fm Kfm M0 M1 M2, lognC2fm Kfm M0 M1 M2)
  | C_CONTINUUM => (lognC0c Kc Kcp M0 M1 M2, lognC2c Kc Kcp M0 M1 M2)
  | _ => (lognHM (lognC0fm Kfm M0 M1 M2) (lognC0c Kc Kcp M0 M1 M2),
          lognHM (lognC2fm Kfm M0 M1 M2) (lognC2c Kc Kcp M0 M1 M2))
  end.

(** growth and oxidation terms, LOGN.cc 239-255 *)
Definition lognSurf1 (k M46 : num) : num := k * M_PI * npow (nZ 6 / (M_PI * rhoSoot)) twothird * M46.
Definition lognSurf2 (k M106 : num) : num := k * M_PI * npow (nZ 6 / (M_PI * rhoSoot)) twothird * M106 * nZ 2.

(** sootModel_LOGN::setSourceTerms, LOGN.cc 153-325 *)
Definition setSourceTermsLOGN (m : model) (s : state) : res (model * state) :=
  M0 <- vget (sootVar s) 0 ;; M1 <- vget (sootVar s) 1 ;; M2 <- vget (sootVar s) 2 ;;
  let Mp := lognM M0 M1 M2 in
  ' (Jnuc, m, s) <- runNucl (collLOGN m) m s ;;
  let mMin := mNucOf s in
  let z := nZ 0 in
  let N0 := if nuclOn m then Jnuc else z in
  let N1 := if nuclOn m then Jnuc * mMin else z in
  let N2 := if nuclOn m then Jnuc * mMin * mMin else z in
  let mD := mDimer (sm_nucl m) in let nD := nDimer (sm_nucl m) in
  let Kfm := getKfm (sm_coag m) s in let Kc := getKc s in let Kcp := getKcp s in
  let Ifm1 := lognIfm1 Kfm mD M0 M1 M2 in let Ic1 := lognIc1 Kc Kcp mD M0 M1 M2 in
  let Ifm2 := lognIfm2 Kfm mD M0 M1 M2 in let Ic2 := lognIc2 Kc Kcp mD M0 M1 M2 in
  let Cnd1 := if isPAH m then mD * nD * (Ifm1 * Ic1) / (Ifm1 + Ic1) else z in
  let Cnd2 := if isPAH m then mD * nD * (Ifm2 * Ic2) / (Ifm2 + Ic2) else z in
  ' (G1, G2) <- (if growOn m then
                   k <- growRate (sm_grow m) (viewOf m) s ;;
                   Ok (lognSurf1 k (Mp 4%Z), lognSurf2 k (Mp 10%Z))
                 else Ok (z, z)) ;;
  ' (X1, X2) <- (if oxidOn m then
                   k <- oxidRate (sm_oxid m) (viewOf m) s ;;
                   Ok (lognSurf1 (- k) (Mp 4%Z), lognSurf2 (- k) (Mp 10%Z))
                 else Ok (z, z)) ;;
  let '(C0, C2) := lognCoag (sm_coag m) s M0 M1 M2 in
  Ok (finish m [ N0 + z + z - z + C0;
                 N1 + G1 + Cnd1 + X1 + z;
                 N2 + G2 + Cnd2 + X2 + C2 ] N1 G1 X1, s).

End Logn.
