(** The gas/soot state: src/state.h, src/state.cc *)
From Coq Require Import ZArith List Bool.
From Verif Require Import Num Defs.
Import ListNotations.
Local Open Scope num_scope.

Section State.
Context {N : Num}.

(** class state, state.h 23-45.  [nsoot] and [Ntar] are [int]. *)
Record state := mkState {
  T : num; P : num; rhoGas : num; MWGas : num; muGas : num;
  yGas : list num; yPah : list num;
  st_nsoot : Z; sootVar : list num; absc : list num; wts : list num; sootScales : list num;
  cMin : num;
  st_Ntar : Z; tarVar : list num; yBio : list num;
  mtar : num; ytar : num; OC : num; HC : num; V : num }.

(** single-field assignments *)
Definition with_T (s : state) x := mkState x (P s) (rhoGas s) (MWGas s) (muGas s) (yGas s) (yPah s) (st_nsoot s) (sootVar s) (absc s) (wts s) (sootScales s) (cMin s) (st_Ntar s) (tarVar s) (yBio s) (mtar s) (ytar s) (OC s) (HC s) (V s).
Definition with_P (s : state) x := mkState (T s) x (rhoGas s) (MWGas s) (muGas s) (yGas s) (yPah s) (st_nsoot s) (sootVar s) (absc s) (wts s) (sootScales s) (cMin s) (st_Ntar s) (tarVar s) (yBio s) (mtar s) (ytar s) (OC s) (HC s) (V s).
Definition with_rhoGas (s : state) x := mkState (T s) (P s) x (MWGas s) (muGas s) (yGas s) (yPah s) (st_nsoot s) (sootVar s) (absc s) (wts s) (sootScales s) (cMin s) (st_Ntar s) (tarVar s) (yBio s) (mtar s) (ytar s) (OC s) (HC s) (V s).
Definition with_MWGas (s : state) x := mkState (T s) (P s) (rhoGas s) x (muGas s) (yGas s) (yPah s) (st_nsoot s) (sootVar s) (absc s) (wts s) (sootScales s) (cMin s) (st_Ntar s) (tarVar s) (yBio s) (mtar s) (ytar s) (OC s) (HC s) (V s).
Definition with_muGas (s : state) x := mkState (T s) (P s) (rhoGas s) (MWGas s) x (yGas s) (yPah s) (st_nsoot s) (sootVar s) (absc s) (wts s) (sootScales s) (cMin s) (st_Ntar s) (tarVar s) (yBio s) (mtar s) (ytar s) (OC s) (HC s) (V s).
Definition with_yGas (s : state) x := mkState (T s) (P s) (rhoGas s) (MWGas s) (muGas s) x (yPah s) (st_nsoot s) (sootVar s) (absc s) (wts s) (sootScales s) (cMin s) (st_Ntar s) (tarVar s) (yBio s) (mtar s) (ytar s) (OC s) (HC s) (V s).
Definition with_yPah (s : state) x := mkState (T s) (P s) (rhoGas s) (MWGas s) (muGas s) (yGas s) x (st_nsoot s) (sootVar s) (absc s) (wts s) (sootScales s) (cMin s) (st_Ntar s) (tarVar s) (yBio s) (mtar s) (ytar s) (OC s) (HC s) (V s).
Definition with_nsoot (s : state) x := mkState (T s) (P s) (rhoGas s) (MWGas s) (muGas s) (yGas s) (yPah s) x (sootVar s) (absc s) (wts s) (sootScales s) (cMin s) (st_Ntar s) (tarVar s) (yBio s) (mtar s) (ytar s) (OC s) (HC s) (V s).
Definition with_sootVar (s : state) x := mkState (T s) (P s) (rhoGas s) (MWGas s) (muGas s) (yGas s) (yPah s) (st_nsoot s) x (absc s) (wts s) (sootScales s) (cMin s) (st_Ntar s) (tarVar s) (yBio s) (mtar s) (ytar s) (OC s) (HC s) (V s).
Definition with_wa (s : state) w a := mkState (T s) (P s) (rhoGas s) (MWGas s) (muGas s) (yGas s) (yPah s) (st_nsoot s) (sootVar s) a w (sootScales s) (cMin s) (st_Ntar s) (tarVar s) (yBio s) (mtar s) (ytar s) (OC s) (HC s) (V s).
Definition with_cMin (s : state) x := mkState (T s) (P s) (rhoGas s) (MWGas s) (muGas s) (yGas s) (yPah s) (st_nsoot s) (sootVar s) (absc s) (wts s) (sootScales s) x (st_Ntar s) (tarVar s) (yBio s) (mtar s) (ytar s) (OC s) (HC s) (V s).
Definition with_Ntar (s : state) x := mkState (T s) (P s) (rhoGas s) (MWGas s) (muGas s) (yGas s) (yPah s) (st_nsoot s) (sootVar s) (absc s) (wts s) (sootScales s) (cMin s) x (tarVar s) (yBio s) (mtar s) (ytar s) (OC s) (HC s) (V s).
Definition with_tarVar (s : state) x := mkState (T s) (P s) (rhoGas s) (MWGas s) (muGas s) (yGas s) (yPah s) (st_nsoot s) (sootVar s) (absc s) (wts s) (sootScales s) (cMin s) (st_Ntar s) x (yBio s) (mtar s) (ytar s) (OC s) (HC s) (V s).
Definition with_yBio (s : state) x := mkState (T s) (P s) (rhoGas s) (MWGas s) (muGas s) (yGas s) (yPah s) (st_nsoot s) (sootVar s) (absc s) (wts s) (sootScales s) (cMin s) (st_Ntar s) (tarVar s) x (mtar s) (ytar s) (OC s) (HC s) (V s).
Definition with_my (s : state) m y := mkState (T s) (P s) (rhoGas s) (MWGas s) (muGas s) (yGas s) (yPah s) (st_nsoot s) (sootVar s) (absc s) (wts s) (sootScales s) (cMin s) (st_Ntar s) (tarVar s) (yBio s) m y (OC s) (HC s) (V s).
Definition with_coal (s : state) o h v := mkState (T s) (P s) (rhoGas s) (MWGas s) (muGas s) (yGas s) (yPah s) (st_nsoot s) (sootVar s) (absc s) (wts s) (sootScales s) (cMin s) (st_Ntar s) (tarVar s) (yBio s) (mtar s) (ytar s) o h v.

(** constructor state(nsoot_, Ntar_), state.h 94-103 (in-class initialisers 23-45) *)
Definition newState (nsoot Ntar : nat) : state :=
  mkState (nZ 0) (nZ 0) (nZ 0) (nZ 0) (nZ 0) (zeros gasSize) (zeros pahSize)
    (Z.of_nat nsoot) (zeros nsoot) (zeros (Nat.div nsoot 2)) (zeros (Nat.div nsoot 2))
    (repeat (nZ 1) nsoot) (nZ 100)
    (Z.of_nat Ntar) (zeros Ntar) [] (nZ 0) (nZ 0) (nZ 0) (nZ 0) (nZ 0).

(** setState leaves a partially updated object behind when it throws. *)
Inductive setOutcome :=
| SetOk (s : state)
| SetThrow (e : exn) (s : state)
| SetUB.

(** [for(int i=0; i<n; i++) if(v[i] < 0) v[i] = 0.0], state.cc 65-67, 76-78 *)
Definition clipNeg (n : Z) (v : list num) : res (list num) :=
  foldM (fun v i => x <- vget v i ;; if nltb x (nZ 0) then vset v i (nZ 0) else Ok v)
        (seq 0 (Z.to_nat n)) v.

(** state::setState, state.cc 36-140.  The gas loop (88-94) assigns its by-value
    loop variable, so a negative mass fraction only escapes the [> 1] test;
    [yGas_sum] (96-98) is never used.  The std::vector parameters are copies. *)
Definition setState (s : state) (T_ P_ rhoGas_ muGas_ : num) (yGas_ yPah_ sootVar_ : list num)
    (nsoot_ : Z) (tarVar_ : list num) (Ntar_ : Z) (cMin_ : num) : setOutcome :=
  if nleb T_ (nZ 0) then SetThrow EDomT s else
  let s := with_T s T_ in
  if nleb P_ (nZ 0) then SetThrow EDomP s else
  let s := with_P s P_ in
  if nleb rhoGas_ (nZ 0) then SetThrow EDomRho s else
  let s := with_rhoGas s rhoGas_ in
  if nleb muGas_ (nZ 0) then SetThrow EDomMu s else
  let s := with_muGas s muGas_ in
  if nleb cMin_ (nZ 0) then SetThrow EDomCMin s else
  let s := with_cMin s cMin_ in
  let s := with_MWGas s (rhoGas s * Rg * T s / P s) in
  match clipNeg (st_nsoot s) sootVar_ with
  | UB _ => SetUB
  | Throw e => SetThrow e s
  | Ok sv =>
  let s := with_nsoot s nsoot_ in
  if existsb (fun x => nltb x (nZ 0)) sv then SetThrow EDomSoot s else
  let s := with_sootVar s sv in
  match clipNeg (st_Ntar s) tarVar_ with
  | UB _ => SetUB
  | Throw e => SetThrow e s
  | Ok tv =>
  let s := with_Ntar s Ntar_ in
  if existsb (fun x => nltb x (nZ 0)) tv then SetThrow EDomTar s else
  let s := with_tarVar s tv in
  if existsb (fun y => ngtb (if nltb y (nZ 0) then nZ 0 else y) (nZ 1)) yGas_ then SetThrow EDomGas s else
  let s := with_yGas s yGas_ in
  if negb (Nat.eqb (length yPah_) (length (yPah s))) then SetThrow EDomPahSize s else
  if existsb (fun y => orb (nltb y (nZ 0)) (ngtb y (nZ 1))) yPah_ then SetThrow EDomPah s else
  if ngtb (nsum yPah_) (nZ 1) then SetThrow EDomPahSum s else
  SetOk (with_yPah s yPah_)
  end end.

(** state.h 58-71.  The species table reads are constant in-bounds reads. *)
Definition getGasSpC (s : state) (sp : gasSp) : res num :=
  y <- vget (yGas s) (gasIdx sp) ;; Ok (rhoGas s * y / MWof sp).
Definition getGasSpP (s : state) (sp : gasSp) : res num :=
  y <- vget (yGas s) (gasIdx sp) ;; Ok (y * MWGas s / MWof sp * P s).
Definition getGasMeanFreePath (s : state) : num :=
  muGas s / rhoGas s * nsqrt (M_PI * MWGas s / (nZ 2 * Rg * T s)).
Definition get_pahSpC (s : state) (sp : pahSp) : res num :=
  y <- vget (yPah s) (pahIdx sp) ;; Ok (rhoGas s * y / pahMW sp).
Definition get_pahSpP (s : state) (sp : pahSp) : res num :=
  y <- vget (yPah s) (pahIdx sp) ;; Ok (y * MWGas s / pahMW sp * P s).

(** state::get_mtar_ytar, state.cc 142-196 *)
Definition get_mtar_ytar (s : state) : res state :=
  let Tg := T s in
  let Pl := nlog10 (P s / nZ 101325) in
  let ytar_cell :=
    (-(nlit 157 3) + Tg*((nlit 2906 (-1)) - (nlit 22 (-3))*Tg + (nZ 8)*Pl + Tg*((nlit 36 (-6))*Tg - (nlit 36 (-3))*Pl)))/ (-(nlit 203 3) + Tg*((nlit 3829 (-1)) + (nlit 112 (-1))*Pl + Tg*((nlit 453 (-7))*Tg - (nlit 42 (-3))*Pl))) in
  let mtar_cell :=
    (-(nlit 306 2) + (nlit 2422 (-1))*Tg + Pl*((nlit 105 2) - (nlit 831 (-1))*Tg + Pl*(-(nlit 184 1) + (nlit 4618 (-1))*Pl)))/ ((nlit 635 (-3))*Tg - Pl*((nlit 145 (-3))*Tg - Pl*((nlit 21 (-3))*Tg - (nlit 278 (-2))*Pl))) in
  let ytar_hw_hc :=
    (-(nlit 521 3) + Tg*((nlit 312 1) - (nlit 108 1)*Pl + Tg*(-(nlit 382 (-3)) + (nlit 207 (-3))*Pl)))/ (Tg*((nlit 575 1) - (nlit 265 1)*Pl - Tg*((nlit 145 (-6))*Tg + (nlit 518 (-3))*Pl))) in
  let mtar_hw_hc :=
    ((nlit 2367 (-1))*Tg - (nlit 592 2)*Pl) / ((nlit 608 (-3))*Tg - (nlit 1094 (-1))*Pl) in
  let ytar_sw_hc :=
    ((nlit 705 2) - (nlit 129 (-7))*Pl + Tg*((nlit 1444 (-1)) + Tg*((nlit 233 (-3)) - (nlit 741 (-7))*Tg)))/ ((nlit 369 3) - (nlit 322 3)*Pl + Tg*((nZ 91) + Tg*((nlit 725 (-3)) - (nlit 208 (-6))*Tg))) in
  let mtar_sw_hc :=
    (Tg*((nZ 50) + (nZ 26)*Pl) + Pl*(-(nlit 641 2) + (nlit 156 2)*Pl))/ ((Tg*((nlit 126 (-3)) + (nlit 72 (-3))*Pl) + Pl*(-(nlit 165 1) + (nlit 413 (-1))*Pl))) in
  let ytar_hw_lig :=
    ((nlit 904 2) - (nlit 343 2)*Pl + Tg*(-(nlit 762 (-1)) + (nlit 366 (-1))*Pl + Tg*((nlit 603 (-5)) - (nlit 11 (-3))*Pl + (nlit 769 (-8))*Tg)))/ ((nlit 137 3) - (nlit 366 2)*Pl + Tg*(-(nlit 1175 (-1)) + (nlit 393 (-1))*Pl + Tg*((nlit 12 (-3)) + (nlit 1 (-5))*Tg - (nlit 12 (-3))*Pl))) in
  let mtar_hw_lig :=
    ((nlit 478 4) + Tg*(-(nlit 84 2) + Tg*((nlit 736 (-2)) - (nlit 123 (-5))*Tg)) + Pl*(-(nlit 5731 (-1))*Tg + Pl*((nlit 339 4) + (nlit 3401 (-1))*Tg - (nlit 485 3)*Pl)))/ ((nlit 813 (-2))*Tg + Pl*Pl*((nlit 147 2) - (nlit 264 (-2))*Tg + (nlit 9979 (-1))*Pl)) in
  let ytar_sw_lig :=
    ((nlit 4705 (-1)) - (nlit 1654 (-1))*Pl + Tg*(-(nlit 303 (-3)) + (nlit 124 (-3))*Pl + Tg*((nlit 322 (-7)) + (nlit 646 (-11))*Tg - (nlit 237 (-7))*Pl)))/ ((nlit 7353 (-1)) - (nZ 176)*Pl + Tg*(-(nlit 55 (-2)) + (nlit 133 (-3))*Pl + Tg*((nlit 105 (-6)) - (nlit 256 (-7))*Pl))) in
  let mtar_sw_lig :=
    ((nlit 1158 (-1)) +Tg*((nlit 117 (-3)) - (nlit 386 (-7))*Tg + (nlit 346 (-5))*Pl) + Pl*(-(nlit 297 (-1)) - (nlit 216 (-2))*Pl))/ ((nlit 887 (-3)) -(nlit 219 (-6))*Tg + Pl*((nlit 106 (-3)) - (nlit 4 (-5))*Tg)) in
  b0 <- vget (yBio s) 0 ;; b1 <- vget (yBio s) 1 ;; b2 <- vget (yBio s) 2 ;;
  b3 <- vget (yBio s) 3 ;; b4 <- vget (yBio s) 4 ;;
  Ok (with_my s
        (mtar_cell*b0 + mtar_hw_hc*b1 + mtar_sw_hc*b2 + mtar_hw_lig*b3 + mtar_sw_lig*b4)
        (ytar_cell*b0 + ytar_hw_hc*b1 + ytar_sw_hc*b2 + ytar_hw_lig*b3 + ytar_sw_lig*b4)).

(** state::get_coal, state.cc 198-202 *)
Definition get_coal (s : state) (o h v : num) : state := with_coal s o h v.

(** state::get_mtar_ytar_coal, state.cc 204-222 *)
Definition get_mtar_ytar_coal (s : state) : state :=
  let Tg := T s in
  let Pl := nlog10 (P s / nZ 101325) in
  let OC := OC s in let HC := HC s in let V := V s in
  let y :=
    (-(nlit 1242 (-1)) + (nlit 357 (-1))*Pl + (nlit 935 (-1))*OC - (nlit 2239 (-1))*OC*OC + (nlit 2848 (-1))*HC -(nlit 1073 (-1))*HC*HC +(nlit 548 (-2))*V +(nlit 14 (-3))*V*V - (nlit 582 (-1))*Pl*HC - (nlit 521 (-3))*Pl*V - (nlit 532 (-2))*HC*V) /
    (-(nlit 3038 (-1)) + (nlit 524 (-1))*Pl +(nlit 155 1)*OC - (nlit 246 1)*OC*OC + (nlit 6569 (-1))*HC - (nlit 2663 (-1))*HC*HC + (nlit 159 (-1))*V + (nlit 25 (-3))*V*V - (nZ 90)*Pl*HC - (nlit 4625 (-1))*OC*HC +(nlit 48 (-1))*OC*V - (nlit 178 (-1))*HC*V) in
  let m :=
    ((nlit 312 3) + (nlit 164 (-1))*Tg + (nlit 434 3)*OC - (nlit 848 3)*HC + (nlit 638 3)*HC*HC - (nlit 3613 (-1))*V - (nlit 221 (-3))*Tg*V - (nlit 639 3)*OC*HC + (nlit 191 1)*HC*V) /
    ((nlit 7536 (-1)) + (nlit 42 (-3))*Tg + (nlit 839 (-1))*OC - (nlit 177 1)*HC + (nlit 12 2)*HC*HC + (nlit 509 (-5))*Tg*Pl - (nlit 24 (-3))*Tg*HC - (nlit 527 (-6))*Tg*V + (nlit 513 (-3))*Pl*V - (nZ 361)*OC*HC + (nlit 383 (-2))*HC*V) in
  with_my s m y.

End State.
