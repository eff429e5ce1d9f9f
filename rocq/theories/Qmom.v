(** Quadrature method of moments: src/sootModel_QMOM.cc *)
From Coq Require Import ZArith List Bool.
From Verif Require Import Num Defs State Binomial Coag Nucl Growth Oxid Tar SootModel.
Import ListNotations.
Local Open Scope num_scope.

Section Qmom.
Context {N : Num}.

(** LAPACK's dstev_, an arbitrary function of the order, the diagonal and the
    subdiagonal; it gives the arrays of eigenvalues and (column-major)
    eigenvectors as functions of the position. *)
Definition eigSolver := nat -> list num -> list num -> (nat -> num) * (nat -> num).

(** ** sootModel_QMOM::wheeler, QMOM.cc 288-331

    Row [i] of [sigma] is a function of the column; the source computes each row
    only on the columns that are read later (the row index stays <= N and the
    column < 2N), so the values outside that range play no role.  All reads of
    [m] are at columns < 2N <= m.size().  [prev], [cur] are rows i-1 and i,
    [a], [b] are a[i-1] and b[i-1]. *)
Fixpoint wheelerRec (fuel i : nat) (prev cur : nat -> num) (a b : num) : list (num * num) :=
  match fuel with
  | O => []
  | S f =>
      let nxt j := cur (S j) - a * cur j - b * prev j in
      let a' := - cur i / cur (i - 1)%nat + nxt (S i) / nxt i in
      let b' := nxt i / cur (i - 1)%nat in
      (a', b') :: wheelerRec f (S i) cur nxt a' b'
  end.
(** a[0..n-1] and b[1..n-1] *)
Definition wheelerAB (m : list num) (n : nat) : list num * list num :=
  let mf i := nth i m (nZ 0) in
  let a0 := mf 1%nat / mf 0%nat in
  let ab := wheelerRec (n - 1) 1 (fun _ => nZ 0) mf a0 (nZ 0) in
  (a0 :: map fst ab, map snd ab).
(** weights and abscissas *)
Definition wheeler (eig : eigSolver) (m : list num) (n : nat) : list num * list num :=
  let '(a, b) := wheelerAB m n in
  let '(eval, evec) := eig n a (map (fun x => - nsqrt (nabs x)) b) in
  (map (fun i => npow (evec (0 + i * n)%nat) (nZ 2) * nth 0 m (nZ 0)) (seq 0 n),
   map eval (seq 0 n)).

(** the test of QMOM.cc 247-251 *)
Definition badValue (x : num) : bool := negb (nfin x) || nltb x (nZ 0).
Definition badValues (w a : list num) : bool := existsb badValue w || existsb badValue a.

(** the downselection loop, QMOM.cc 232-262.  Starting from Nenv = 0 (a single
    moment) the wheeler function writes outside its arrays. *)
Fixpoint downselect (eig : eigSolver) (m : list num) (Nenv : nat) : res (list num * list num) :=
  match Nenv with
  | O => UB OutOfBounds
  | S O => M0 <- vget m 0 ;; M1 <- vget m 1 ;; Ok ([M0], [M1 / M0])
  | S n' =>
      let '(w, a) := wheeler eig m Nenv in
      if badValues w a then downselect eig m n' else Ok (w, a)
  end.

(** [v[i] = t[i] >= 0 ? t[i] : 0.0] for all i < Nenv, QMOM.cc 265-268 *)
Definition assignNonneg (v t : list num) : res (list num) :=
  foldM (fun v i => let x := nth i t (nZ 0) in vset v i (if ngeb x (nZ 0) then x else nZ 0))
        (seq 0 (length t)) v.

(** sootModel_QMOM::getWtsAbs, QMOM.cc 218-270; returns the new weights and abscissas *)
Definition getWtsAbs (eig : eigSolver) (m w a : list num) : res (list num * list num) :=
  let w := map (fun _ => nZ 0) w in
  let a := map (fun _ => nZ 0) a in
  M0 <- vget m 0 ;;
  if nleb M0 (nZ 0) then Ok (w, a) else
  ' (wt, at_) <- downselect eig m (Nat.div (length m) 2) ;;
  w <- assignNonneg w wt ;;
  a <- assignNonneg a at_ ;;
  Ok (w, a).

(** sootModel_QMOM::Mr, QMOM.cc 344-354 *)
Fixpoint qmomMrLoop (r acc : num) (w a : list num) : res num :=
  match w with
  | [] => Ok acc
  | wi :: w' =>
      if nleb wi (nZ 0) then Ok (nZ 0) else
      match a with
      | [] => UB OutOfBounds
      | ai :: a' => if nleb ai (nZ 0) then Ok (nZ 0) else qmomMrLoop r (acc + wi * npow ai r) w' a'
      end
  end.
Definition qmomMr (r : num) (w a : list num) : res num := qmomMrLoop r (nZ 0) w a.

(** ** Source terms *)

(** PAH condensation, QMOM.cc 118-126 *)
Definition qmomCnd (m : model) (s : state) (k : nat) : res num :=
  if isPAH m && Nat.leb 1 k then
    c <- foldM (fun acc i =>
           x <- vget (absc s) i ;; w <- vget (wts s) i ;;
           Ok (acc + coagRate (sm_coag m) s (mDimer (sm_nucl m)) x * w *
                     (if Nat.eqb k 1 then nZ 1 else if Nat.eqb k 2 then x else npow x (nn (k - 1)))))
         (seq 0 (length (absc s))) (nZ 0) ;;
    Ok (c * (nn k * nDimer (sm_nucl m) * mDimer (sm_nucl m)))
  else Ok (nZ 0).

(** Acoef, QMOM.cc 132 (and MOMIC.cc 197, HMOM.cc 227) *)
Definition Acoef : num := M_PI * npow (nZ 6 / (M_PI * rhoSoot)) twothird.

(** growth and oxidation, QMOM.cc 134-145: [k] is +kGrw or -kOxi *)
Definition qmomSurf (on : bool) (rate : num) (s : state) (k : nat) : res num :=
  if on && Nat.leb 1 k then
    M <- qmomMr (nn k - onethird) (wts s) (absc s) ;;
    Ok (rate * Acoef * nn k * M)
  else Ok (nZ 0).

(** the inner sums over k, QMOM.cc 161-163 and 169-171 *)
Definition s0 (r : nat) : num := match r with O => nZ (-1) | _ => nZ 0 end.
Definition qmomSij (r : nat) (xi xj : num) : res num :=
  foldM (fun acc k =>
           b <- binomial_coefficient (Z.of_nat r) (Z.of_nat k) ;;
           Ok (acc + b * npow xi (nn k) * npow xj (nn (r - k))))
        (seq 1 (r - 1)) (s0 r).
Definition qmomSii (r : nat) : res num :=
  foldM (fun acc k => b <- binomial_coefficient (Z.of_nat r) (Z.of_nat k) ;; Ok (acc + b))
        (seq 1 (r - 1)) (s0 r).

(** coagulation source of moment [r], QMOM.cc 147-178 *)
Definition qmomCoag (c : coagObj) (s : state) (r : nat) : res num :=
  if Nat.eqb r 1 then Ok (nZ 0) else
  let n := length (absc s) in
  off <- foldM (fun acc i =>
           foldM (fun acc j =>
             xi <- vget (absc s) i ;; xj <- vget (absc s) j ;;
             sij <- qmomSij r xi xj ;;
             wi <- vget (wts s) i ;; wj <- vget (wts s) j ;;
             Ok (acc + coagRate c s xi xj * wi * wj * sij))
           (seq 0 i) acc)
         (seq 1 (n - 1)) (nZ 0) ;;
  sii <- qmomSii r ;;
  foldM (fun acc i =>
           x <- vget (absc s) i ;; w <- vget (wts s) i ;;
           Ok (acc + nlit 5 (-1) * coagRate c s x x * w * w * sii *
                     (if Nat.eqb r 0 then nZ 1 else npow x (nn r))))
        (seq 0 n) off.

(** sootModel_QMOM::setSourceTerms, QMOM.cc 95-202 *)
Definition setSourceTermsQMOM (eig : eigSolver) (m : model) (s : state) : res (model * state) :=
  ' (w, a) <- getWtsAbs eig (sootVar s) (wts s) (absc s) ;;
  let s := with_wa s w a in
  ' (jNuc, kGrw, kOxi, m, s) <- chemRates (collSum (sm_coag m)) m s ;;
  let ks := seq 0 (sm_nsoot m) in
  let mNuc := mNucOf s in
  let nuc := map (fun i => if nuclOn m then npow mNuc (nn i) * jNuc else nZ 0) ks in
  cnd <- mapM (qmomCnd m s) ks ;;
  grw <- mapM (qmomSurf (growOn m) kGrw s) ks ;;
  oxi <- mapM (qmomSurf (oxidOn m) (- kOxi) s) ks ;;
  coa <- mapM (fun r => if coagOn m then qmomCoag (sm_coag m) s r else Ok (nZ 0)) ks ;;
  let at_ l k := nth k l (nZ 0) in
  Ok (finish m (combine5 (sm_nsoot m) (at_ nuc) (at_ cnd) (at_ grw) (at_ oxi) (at_ coa))
        (at_ nuc 1%nat) (at_ grw 1%nat) (at_ oxi 1%nat), s).

End Qmom.
