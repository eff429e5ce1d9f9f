(** Hybrid method of moments: src/sootModel_HMOM.cc *)
From Coq Require Import ZArith List Bool.
From Verif Require Import Num Defs State Binomial Coag Nucl Growth Oxid Tar SootModel Qmom Momic.
Import ListNotations.
Local Open Scope num_scope.

Section Hmom.
Context {N : Num}.

(** std::max(x, 0.0) *)
Definition max0 (x : num) : num := if nltb x (nZ 0) then nZ 0 else x.

(** large-mode moments with their guards, HMOM.cc 119-136 *)
Fixpoint fallback (mNuc prev : num) (l : list num) : list num :=
  match l with
  | [] => []
  | x :: t => let y := if nleb x (nZ 0) then prev * mNuc * nlit 15 (-1) else x in y :: fallback mNuc y t
  end.
Definition largeMoments (Nmom : nat) (N0 mNuc : num) (s : state) : res (list num) :=
  l <- mapM (fun k => x <- vget (sootVar s) k ;; Ok (max0 (x - N0 * npow mNuc (nn k)))) (seq 0 Nmom) ;;
  Ok (match l with
      | [] => []
      | x :: t => let y := if nleb x (nZ 0) then nlit 1 (-20) else x in y :: fallback mNuc y t
      end).

(** get_Ik, HMOM.cc 572-591.  Both integrals are always computed. *)
Definition get_Ik (c : coagObj) (s : state) (d : interpData) (k : nat) : res num :=
  match id_mass d with
  | None => UB Uninit
  | Some m0 =>
      g <- g_grid m0 (id_Mq6 d) (Z.of_nat k) ;;
      let fm := getKfm c s * g in
      br <- contBracket m0 (getKcp s) (id_Mp6 d) (k * 3) ;;
      let cc := getKc s * br in
      Ok (match co_mech c with
          | C_FM => fm
          | C_CONTINUUM => cc
          | _ => fm * cc / (fm + cc)
          end)
  end.

(** PAH condensation, HMOM.cc 156-222: the small-mode loss and the moments *)
Definition hmomCnd (m : model) (s : state) (d : interpData) (N0 mNuc : num) (k : nat) : res num :=
  if isPAH m && Nat.leb 1 k then
    let mD := mDimer (sm_nucl m) in let nD := nDimer (sm_nucl m) in
    let beta_c0 := coagRate (sm_coag m) s mD mNuc in
    br <- contBracket mD (getKcp s) (id_Mp6 d) ((k - 1) * 3) ;;
    let cC := nn k * getKc s * nD * mD * br in
    g <- g_grid mD (id_Mq6 d) (Z.of_nat k) ;;
    let cFM := nn k * getKfm (sm_coag m) s * nD * mD * g in
    Ok (nn k * npow mNuc (nn (k - 1)) * beta_c0 * nD * mD * N0 + cFM * cC / (cFM + cC))
  else Ok (nZ 0).

(** growth and oxidation, HMOM.cc 224-248 *)
Definition hmomSurf (on : bool) (rate : num) (d : interpData) (N0 mNuc : num) (k : nat) : num :=
  if on && Nat.leb 1 k then
    rate * Acoef * nn k *
      (npow mNuc (nn k - onethird) * N0 + momMr (id_Nmom d) (id_diff0 d) (nn k - onethird))
  else nZ 0.
Definition hmomSurf0 (on : bool) (rate N0 mNuc : num) : num :=
  if on then - rate * Acoef * npow mNuc (nZ (-1) / nZ 3) * N0 else nZ 0.

(** coagulation, HMOM.cc 250-285; the moments' sources and that of the small mode *)
Definition hmomCoag (m : model) (s : state) (d : interpData) (ML : list num) (N0 mNuc : num)
    : res (list num * num) :=
  let n := id_Nmom d in
  let c := sm_coag m in
  let beta_00 := coagRate c s mNuc mNuc in
  let SS := - beta_00 * N0 * N0 in
  beta_0L <- get_Ik c s d 0 ;;
  let SL := - beta_0L * N0 in
  LL <- momCoagRates c s n (id_Mp6 d) (id_Mq6 d) (nth 0 ML (nZ 0)) ;;
  l <- mapM (fun r =>
         if Nat.eqb r 1 then Ok (nZ 0) else
         let ss := nlit 5 (-1) * beta_00 * N0 * N0 * (npow (nZ 2) (nn r) - nZ 2) * npow mNuc (nn r) in
         sl <- (if Nat.leb 2 r then
                  t <- foldM (fun acc k =>
                         b <- binomial_coefficient (Z.of_nat r) (Z.of_nat k) ;;
                         ik <- get_Ik c s d k ;;
                         Ok (acc + b * npow mNuc (nn (r - k)) * ik)) (seq 1 (r - 1)) (nZ 0) ;;
                  Ok (N0 * t)
                else Ok (- beta_0L * N0)) ;;
         Ok (ss + sl + nth r LL (nZ 0))) (seq 0 n) ;;
  Ok (l, SS + SL).

(** sootModel_HMOM::setSourceTerms, HMOM.cc 114-310 *)
Definition setSourceTermsHMOM (m : model) (s : state) : res (model * state) :=
  let d := momicData m in
  let n := id_Nmom d in
  N0 <- vget (sootVar s) n ;;
  let mNuc := mNucOf s in
  ML <- largeMoments n N0 mNuc s ;;
  d <- setMoments npHMOM nqHMOM d ML ;;
  let d := mkInterp n (id_diff0 d) (id_Mp6 d) (id_Mq6 d) (Some mNuc) in
  let m := with_priv m (PrivHmom d) in
  ' (Jnuc, Kgrw, Koxi, m, s) <- chemRates (collSum (sm_coag m)) m s ;;
  let z := nZ 0 in
  let nuc k := if nuclOn m then npow mNuc (nn k) * Jnuc else z in
  let N0nuc := if nuclOn m then Jnuc else z in
  let N0cond := if isPAH m
    then - coagRate (sm_coag m) s (mDimer (sm_nucl m)) mNuc * nDimer (sm_nucl m) * N0 else z in
  cnd <- mapM (hmomCnd m s d N0 mNuc) (seq 0 n) ;;
  let grw := hmomSurf (growOn m) Kgrw d N0 mNuc in
  let oxi := hmomSurf (oxidOn m) (- Koxi) d N0 mNuc in
  ' (coa, N0coag) <- (if coagOn m then hmomCoag m s d ML N0 mNuc else Ok (zeros n, z)) ;;
  let at_ l k := nth k l z in
  let N0src := N0nuc + N0cond + hmomSurf0 (growOn m) Kgrw N0 mNuc + hmomSurf0 (oxidOn m) Koxi N0 mNuc + N0coag in
  Ok (finish m (combine5 n nuc (at_ cnd) grw oxi (at_ coa) ++ [N0src]) (nuc 1%nat) (grw 1%nat) (oxi 1%nat), s).

End Hmom.
