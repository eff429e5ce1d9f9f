(** Monodisperse model: src/sootModel_MONO.cc *)
From Coq Require Import ZArith List Bool.
From Verif Require Import Num Defs State Coag Nucl Growth Oxid Tar SootModel.
Import ListNotations.
Local Open Scope num_scope.

Section Mono.
Context {N : Num}.

(** Am2m3, MONO.cc 125 and 233 *)
Definition monoArea (M0 M1 : num) : num :=
  if ngtb M0 (nZ 0)
  then M_PI * npow (nZ 6 / (M_PI * rhoSoot) * M1 / M0) twothird * M0
  else nZ 0.

(** the terms computed identically in both branches, MONO.cc 94-144 = 203-252 *)
Record monoTerms := mkMT {
  mt_N0 : num; mt_N1 : num; mt_Cnd1 : num; mt_A : num; mt_G1 : num; mt_X1 : num; mt_C0 : num }.

Definition monoTermsOf (M0 M1 : num) (m : model) (s : state) : res (monoTerms * model * state) :=
  ' (jNuc, kGrw, kOxi, m, s) <- chemRates (collSum (sm_coag m)) m s ;;
  x0 <- vget (absc s) 0 ;;
  let coa := coagRate (sm_coag m) s x0 x0 in
  let N0 := if nuclOn m then jNuc else nZ 0 in
  let N1 := if nuclOn m then jNuc * cMin s * MWof C_ / Na else nZ 0 in
  Cnd1 <- (if isPAH m then
             w0 <- vget (wts s) 0 ;;
             Ok (coagRate (sm_coag m) s (mDimer (sm_nucl m)) x0 * w0 * nDimer (sm_nucl m) * mDimer (sm_nucl m))
           else Ok (nZ 0)) ;;
  let A := monoArea M0 M1 in
  let G1 := if growOn m then kGrw * A else nZ 0 in
  let X1 := if oxidOn m then - kOxi * A else nZ 0 in
  C0 <- (if coagOn m then
           w0 <- vget (wts s) 0 ;; Ok (nlit (-5) (-1) * coa * w0 * w0)
         else Ok (nZ 0)) ;;
  Ok (mkMT N0 N1 Cnd1 A G1 X1 C0, m, s).

(** rAN, MONO.cc 164 and 167 *)
Definition brownAgg (M0 M1 : num) (s : state) : num :=
  nZ 2 * nZ 3 * npow (nZ 6 * MWof C_ / (M_PI * rhoSoot)) (nZ 1 / nZ 6)
  * nsqrt (nZ 6 * kb * T s / rhoSoot)
  * npow (M1 / MWof C_) (nZ 1 / nZ 6) * npow M0 (nZ 11 / nZ 6).

(** MONO.cc 79-88 *)
Definition monoSetWA (M0 M1 : num) (s : state) : res state :=
  if ngtb M0 (nZ 0) then
    w <- vset (wts s) 0 M0 ;; a <- vset (absc s) 0 (M1 / M0) ;; Ok (with_wa s w a)
  else Ok s.

(** T0, T1, T2 of the tar branch, MONO.cc 148-173 *)
Definition monoTarTerms (M0 M1 Ntar0 : num) (t : monoTerms) (m : model) (s : state) : res (num * num * num) :=
  match ta_mech (sm_tar m) with
  | T_AJ_RED =>
      crack <- crackRate (sm_tar m) s ;;
      gasify <- surfRate (sm_tar m) s ;;
      depo <- depoRate (sm_tar m) s ;;
      let net := mt_G1 t + mt_X1 t - gasify in
      Ok (- depo - crack + nZ 2508 * Ntar0 * net - nZ 2 * mt_N0 t,
          mt_N0 t + mt_C0 t,
          (mtar s * depo + mt_A t * net) + mt_Cnd1 t + nZ 2 * mtar s * mt_N0 t)
  | T_BROWN =>
      oxi <- crackRate (sm_tar m) s ;;
      gasify <- surfRate (sm_tar m) s ;;
      Ok (- mt_N1 t - gasify - oxi,
          mt_N0 t - brownAgg M0 M1 s,
          mt_N1 t + mt_X1 t)
  | _ => Ok (nZ 0, nZ 0, nZ 0)
  end.

Definition setTarSources (m : model) (l : list num) : model :=
  let o := sm_sources m in
  with_sources m (mkSources (sootSources o) (gasSources o) (pahSources o) l (tarGasSources o)).

(** sootModel_MONO::setSourceTerms, MONO.cc 74-283 *)
Definition setSourceTermsMONO (m : model) (s : state) : res (model * state) :=
  M0 <- vget (sootVar s) 0 ;;
  M1 <- vget (sootVar s) 1 ;;
  s <- monoSetWA M0 M1 s ;;
  match ta_mech (sm_tar m) with
  | T_NONE =>
      ' (t, m, s) <- monoTermsOf M0 M1 m s ;;
      let z := nZ 0 in
      Ok (finish m [ mt_N0 t + z + z + z + mt_C0 t;
                     mt_N1 t + mt_Cnd1 t + mt_G1 t + mt_X1 t + z ]
                 (mt_N1 t) (mt_G1 t) (mt_X1 t), s)
  | _ =>
      Ntar0 <- vget (tarVar s) 0 ;;
      ' (t, m, s) <- monoTermsOf M0 M1 m s ;;
      ' (T0, T1, T2) <- monoTarTerms M0 M1 Ntar0 t m s ;;
      ts <- vset (tarSources (sm_sources m)) 0 T0 ;;
      Ok (finish (setTarSources m ts) [ T1; T2 ] (mt_N1 t) (mt_G1 t) (mt_X1 t), s)
  end.

End Mono.
