(** Sectional model: src/sootModel_SECT.cc *)
From Coq Require Import ZArith List Bool.
From Verif Require Import Num Defs State Coag Nucl Growth Oxid Tar SootModel.
Import ListNotations.
Local Open Scope num_scope.

Section Sect.
Context {N : Num}.

(** Vectors sized by the constructor to [nsoot] (mBins, beta_DSi, the local S...
    vectors) are read as functions of the index, always below [nsoot]; the user's
    [sootVar] is read with a check. *)
Definition at_ (l : list num) (k : nat) : num := nth k l (nZ 0).

(** [state.sootVar[k]] for all k < nsoot *)
Definition readSoot (nsoot : nat) (s : state) : res (list num) :=
  mapM (fun k => vget (sootVar s) k) (seq 0 nsoot).

(** sootModel_SECT::pahSootCollisionRatePerDimer, SECT.cc 118-148.  The write
    beta_DSi[k] leaves the vector when it was not resized by the constructor. *)
Definition collSECT (m : model) (s : state) (mD : num) : res (num * list num) :=
  let ns := sm_nsoot m in
  let mb := at_ (sm_mBins m) in
  match sm_priv m with
  | PrivSect _ beta =>
      if Nat.ltb (length beta) ns then UB OutOfBounds else
      let b := map (fun k => coagRate (sm_coag m) s mD (mb k)) (seq 0 ns) in
      nv <- readSoot ns s ;;
      let n := at_ nv in
      let term k := at_ b k * n k / (mb (S k) - mb k) in
      let I0 := nZ 0 - term 0%nat * mb 0%nat in
      let I1 := fold_left (fun acc k => acc + mb k * (term (k - 1)%nat - term k)) (seq 1 (ns - 2)) I0 in
      let kl := (ns - 1)%nat in
      Ok (I1 + mb kl * (term (kl - 1)%nat + at_ b kl * n kl / mb kl), b)
  | _ => UB OutOfBounds
  end.

(** fluxes to the right (growth, condensation), SECT.cc 190-205 and 213-228:
    [out k] leaves bin k for bin k+1, [last] is created in the last bin *)
Definition sectUp (ns : nat) (out : nat -> num) (last : num) (k : nat) : num :=
  if Nat.eqb k 0 then - out 0%nat
  else if Nat.ltb k (ns - 1) then out (k - 1)%nat - out k
  else out (k - 1)%nat + last.
(** fluxes to the left (oxidation), SECT.cc 236-249: [out k] leaves bin k for bin
    k-1, [first] is lost from bin 0 *)
Definition sectDown (ns : nat) (out : nat -> num) (first : num) (k : nat) : num :=
  if Nat.eqb k (ns - 1) then - out k
  else if Nat.eqb k 0 then out 1%nat - first
  else out (S k) - out k.

(** Am2m3, SECT.cc 182-184 *)
Definition sectArea (mb n : nat -> num) (k : nat) : num :=
  M_PI * npow (nZ 6 * mb k / (M_PI * rhoSoot)) twothird * n k.

Definition addAt (v : list num) (k : nat) (x : num) : list num := upd v k (at_ v k + x).
Definition subAt (v : list num) (k : nat) (x : num) : list num := upd v k (at_ v k - x).

(** gain part of one collision, SECT.cc 275-286: [k] is the bin found *)
Definition sectGain (ns : nat) (mb : nat -> num) (term : num) (i j k : nat) (v : list num) : list num :=
  let k := if Nat.leb ns k then (ns - 1)%nat else k in
  if Nat.eqb k (ns - 1) then addAt v k (term * (mb i + mb j) / mb k)
  else
    let Xk := (mb (S k) - (mb i + mb j)) / (mb (S k) - mb k) in
    addAt (addAt v k (Xk * term)) (S k) ((nZ 1 - Xk) * term).

(** one pass of the double loop, SECT.cc 259-287 *)
Definition sectPair (c : coagObj) (s : state) (ns : nat) (mb n : nat -> num) (ilnF : num)
    (v : list num) (i j : nat) : res (list num) :=
  let K12 := coagRate c s (mb i) (mb j) in
  let term := K12 * n i * n j in
  let v := subAt v i term in
  let v := if Nat.ltb i j then subAt v j term else v in
  let term := if Nat.eqb i j then term * nlit 5 (-1) else term in
  match ntrunc (ilnF * nlog ((mb i + mb j) / mb 0%nat)) with
  | None => UB BadCast
  | Some k => Ok (sectGain ns mb term i j k v)
  end.
Definition sectCoag (c : coagObj) (s : state) (ns : nat) (mb n : nat -> num) (ilnF : num) : res (list num) :=
  foldM (fun v i => foldM (fun v j => sectPair c s ns mb n ilnF v i j) (seq i (ns - i)) v)
        (seq 0 ns) (zeros ns).

(** the function-local static, SECT.cc 256: initialised once per process, by
    the first sectional model that gets there *)
Definition ilnFof (g : option num) (F : num) : num :=
  match g with Some x => x | None => nZ 1 / nlog F end.

(** sootModel_SECT::setSourceTerms, SECT.cc 162-319; [g] is the process-wide static *)
Definition setSourceTermsSECT (g : option num) (m : model) (s : state)
    : res (option num * model * state) :=
  ' (jNuc, kGrw, kOxi, m, s) <- chemRates (collSECT m) m s ;;
  let ns := sm_nsoot m in
  let mb := at_ (sm_mBins m) in
  nv <- readSoot ns s ;;
  let n := at_ nv in
  let z := nZ 0 in
  let Snuc k := if nuclOn m && Nat.eqb k 0 then jNuc * mNucOf s / mb 0%nat else z in
  let A := sectArea mb n in
  let Sgrw := if growOn m
    then sectUp ns (fun k => kGrw * A k / (mb (S k) - mb k)) (kGrw * A (ns - 1)%nat / mb (ns - 1)%nat)
    else fun _ => z in
  let '(F, beta) := match sm_priv m with PrivSect F b => (F, b) | _ => (z, []) end in
  let cnd k := at_ beta k * n k * nDimer (sm_nucl m) * mDimer (sm_nucl m) in
  let Scnd := if isPAH m
    then sectUp ns (fun k => cnd k / (mb (S k) - mb k)) (cnd (ns - 1)%nat / mb (ns - 1)%nat)
    else fun _ => z in
  let Soxi := if oxidOn m
    then sectDown ns (fun k => kOxi * A k / (mb k - mb (k - 1)%nat)) (kOxi * A 0%nat / mb 0%nat)
    else fun _ => z in
  ' (g, coa) <- (if coagOn m then
                   let ilnF := ilnFof g F in
                   v <- sectCoag (sm_coag m) s ns mb n ilnF ;; Ok (Some ilnF, v)
                 else Ok (g, zeros ns)) ;;
  let soot := combine5 ns Snuc Sgrw Scnd Soxi (at_ coa) in
  let msum (S : nat -> num) := fold_left (fun acc k => acc + S k * mb k) (seq 0 ns) z in
  Ok (g, finish m soot (msum Snuc) (msum Sgrw) (msum Soxi), s).

End Sect.
