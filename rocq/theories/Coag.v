(** Coagulation kernels: src/coagulationModels *)
From Coq Require Import ZArith List Bool.
From Verif Require Import Num Defs State.
Import ListNotations.
Local Open Scope num_scope.

Section Coag.
Context {N : Num}.

(** class coagulationModel, coagulationModel.h 15-26: the dynamic class, the
    public tag [mechType] and the protected [FM_multiplier].  (The back pointer
    [SM] is modelled in Objects.v; no kernel reads it.) *)
Record coagObj := mkCoag { co_class : coagulationMech; co_mech : coagulationMech; co_FM : num }.

(** constructors of coagulationModel_X (X.h, lines 26-31): FM_multiplier = 1.0 *)
Definition newCoag (c : coagulationMech) : coagObj := mkCoag c c (nZ 1).

(** set_FM_multiplier, coagulationModel.h 46-48 *)
Definition set_FM_multiplier (c : coagObj) (x : num) : coagObj := mkCoag (co_class c) (co_mech c) x.

(** getKfm, getKc, getKcp, coagulationModel.h 34-44 *)
Definition getKfm (c : coagObj) (s : state) : num :=
  co_FM c * eps_c * nsqrt (nlit 5 (-1) * M_PI * kb * T s) * npow (nZ 6 / (M_PI * rhoSoot)) twothird.
Definition getKc (s : state) : num := nZ 2 * kb * T s / (nZ 3 * muGas s).
Definition getKcp (s : state) : num :=
  nZ 2 * nlit 1657 (-3) * getGasMeanFreePath s * npow (M_PI * rhoSoot / nZ 6) onethird.

(** [m1 <= mmin || m2 <= mmin], first line of every kernel *)
Definition tooSmall (m1 m2 : num) : bool := nleb m1 mmin || nleb m2 mmin.

(** coagulationModel_FM.cc 19-28 *)
Definition kernelFM (c : coagObj) (s : state) (m1 m2 : num) : num :=
  if tooSmall m1 m2 then nZ 0 else
  let m13_m13 := npow m1 onethird + npow m2 onethird in
  getKfm c s * nsqrt (nZ 1 / m1 + nZ 1 / m2) * m13_m13 * m13_m13.

(** coagulationModel_CONTINUUM.cc 19-40 *)
Definition kernelCONT (s : state) (m1 m2 : num) : num :=
  if tooSmall m1 m2 then nZ 0 else
  let d1 := npow (nZ 6 * m1 / (M_PI * rhoSoot)) onethird in
  let d2 := npow (nZ 6 * m2 / (M_PI * rhoSoot)) onethird in
  let ds := d1 + d2 in
  let mfp := getGasMeanFreePath s in
  let Kn1 := nZ 2 * mfp / d1 in
  let Kn2 := nZ 2 * mfp / d2 in
  let Cc1 := nZ 1 + nlit 1657 (-3) * Kn1 in
  let Cc2 := nZ 1 + nlit 1657 (-3) * Kn2 in
  getKc s * (Cc1 / d1 + Cc2 / d2) * ds.

(** coagulationModel_HM.cc 22-51 *)
Definition kernelHM (c : coagObj) (s : state) (m1 m2 : num) : num :=
  if tooSmall m1 m2 then nZ 0 else
  let d1 := npow (nZ 6 * m1 / (M_PI * rhoSoot)) onethird in
  let d2 := npow (nZ 6 * m2 / (M_PI * rhoSoot)) onethird in
  let ds := d1 + d2 in
  let mR := m1 * m2 / (m1 + m2) in
  let K12_FM := eps_c * nsqrt (M_PI * kb * T s * nlit 5 (-1) / mR) * ds * ds * co_FM c in
  let mfp := getGasMeanFreePath s in
  let Kn1 := nZ 2 * mfp / d1 in
  let Kn2 := nZ 2 * mfp / d2 in
  let Cc1 := nZ 1 + Kn1 * (nlit 1257 (-3) + nlit 4 (-1) * nexp (nlit (-11) (-1) / Kn1)) in
  let Cc2 := nZ 1 + Kn2 * (nlit 1257 (-3) + nlit 4 (-1) * nexp (nlit (-11) (-1) / Kn2)) in
  let K12_C := twothird * kb * T s / muGas s * (Cc1 / d1 + Cc2 / d2) * ds in
  K12_FM * K12_C / (K12_FM + K12_C).

(** coagulationModel_FUCHS.cc 26-59 *)
Definition kernelFUCHS (c : coagObj) (s : state) (m1 m2 : num) : num :=
  if tooSmall m1 m2 then nZ 0 else
  let d1 := npow (nZ 6 * m1 / (M_PI * rhoSoot)) onethird in
  let d2 := npow (nZ 6 * m2 / (M_PI * rhoSoot)) onethird in
  let mfp := getGasMeanFreePath s in
  let Kn1 := nZ 2 * mfp / d1 in
  let Kn2 := nZ 2 * mfp / d2 in
  let Cc1 := nZ 1 + Kn1 * (nlit 1257 (-3) + nlit 4 (-1) * nexp (nlit (-11) (-1) / Kn1)) in
  let Cc2 := nZ 1 + Kn2 * (nlit 1257 (-3) + nlit 4 (-1) * nexp (nlit (-11) (-1) / Kn2)) in
  let D1 := kb * T s / (nZ 3 * M_PI * muGas s) * Cc1 / d1 in
  let D2 := kb * T s / (nZ 3 * M_PI * muGas s) * Cc2 / d2 in
  let c1 := nsqrt (nZ 8 * kb * T s / (M_PI * m1)) in
  let c2 := nsqrt (nZ 8 * kb * T s / (M_PI * m2)) in
  let l1 := nZ 8 * D1 / (M_PI * c1) in
  let l2 := nZ 8 * D2 / (M_PI * c2) in
  let g1 := root2 / (nZ 3 * d1 * l1) * (npow (d1 + l1) (nZ 3) - npow (d1 * d1 + l1 * l1) (nlit 15 (-1))) - root2 * d1 in
  let g2 := root2 / (nZ 3 * d2 * l2) * (npow (d2 + l2) (nZ 3) - npow (d2 * d2 + l2 * l2) (nlit 15 (-1))) - root2 * d2 in
  nZ 2 * M_PI * (D1 + D2) * (d1 + d2) /
    ((d1 + d2) / (d1 + d2 + nZ 2 * nsqrt (g1 * g1 + g2 * g2)) +
     nZ 8 / (eps_c * co_FM c) * (D1 + D2) / (nsqrt (c1 * c1 + c2 * c2) * (d1 + d2))).

(** virtual dispatch of getCoagulationSootRate; NONE: coagulationModel_NONE.h 32.
    ([C_size] is no class; no object has it.) *)
Definition coagRate (c : coagObj) (s : state) (m1 m2 : num) : num :=
  match co_class c with
  | C_NONE => nZ 0
  | C_FM => kernelFM c s m1 m2
  | C_CONTINUUM => kernelCONT s m1 m2
  | C_HM => kernelHM c s m1 m2
  | C_FUCHS => kernelFUCHS c s m1 m2
  | C_size => nZ 0
  end.

End Coag.
