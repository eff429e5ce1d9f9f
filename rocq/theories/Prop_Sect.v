(** Properties C28-C32 and C56: the sectional model. *)
From Coq Require Import ZArith List Reals.
From Verif Require Import Num Defs State Nucl Growth Oxid Coag Tar SootModel Qmom Calls XR SpecChem SpecCoag SpecValid SpecRates SpecGas
  SpecPah SpecPsd SpecSect SectFinal SectBins.
Import ListNotations.
Local Open Scope R_scope.

(** ** C28 *)
Theorem C28_bins_enum : forall nsoot n gr ox co Ntar ta F c (m : model (N:=XR)), (0 < c)%Z -> 1 < F ->
  constructEnum P_SECT nsoot n gr ox co Ntar ta (Fin F) c = Ok m ->
  (2 <= nsoot)%nat /\ length (sm_mBins m) = nsoot /\
  (forall j, (j < nsoot)%nat -> nth_error (sm_mBins m) j = Some (Fin (IZR c * F ^ j * (massC / avogadro)))) /\
  isSect m (geometric c F nsoot) F /\ goodBins (geometric c F nsoot) /\ hasAll m (mkMechs n gr ox co 1).
Proof. exact C28e. Qed.
Print Assumptions C28_bins_enum.
Theorem C28_bins_pointers : forall nsoot nu gr ox co Ntar ta F c (m : model (N:=XR)), (0 < c)%Z -> 1 < F ->
  constructPtr P_SECT nsoot nu gr ox co Ntar ta (Fin F) c = Ok m ->
  (2 <= nsoot)%nat /\ length (sm_mBins m) = nsoot /\
  (forall j, (j < nsoot)%nat -> nth_error (sm_mBins m) j = Some (Fin (IZR c * F ^ j * (massC / avogadro)))) /\
  isSect m (geometric c F nsoot) F /\ goodBins (geometric c F nsoot).
Proof. exact C28p. Qed.
Print Assumptions C28_bins_pointers.
Example C28_case : exists (m : model (N:=XR)), constructEnum P_SECT 4 N_LL G_LL O_LL C_FM 0 T_NONE (Fin 2) 100 = Ok m.
Proof. exact (C56_accepts (Fin 2)). Qed.

(** ** C29 *)
(** whatever bins, numbers and located bins: the mass gained by the soot is that of
    nucleation, of growth and oxidation on the total surface and of the dimers that
    hit soot; coagulation adds none *)
Theorem C29_sect_mass : forall m m' s s' g k b n F c st st' eig,
  isSect m b F -> goodBins b -> hasAll m k -> okAll k -> valid s g n -> length n = length b ->
  regular k g (number n) (mass b n) -> located st F c -> setSourceTerms st eig m s = Ok (st', m', s') ->
  let o := nucl k g (dimerHits k g b n) in
  exists q, soots m' = map Fin q /\ length q = length b /\
    mass b q = oN1 o + (kgrow k g (number n) (mass b n) - koxid k g (number n) (mass b n)) * totalArea b n
               + oConc o * oMass o * Sum (length b) (fun j => kernel k g (oMass o) (el b j) * el n j) /\
    gasBudget m' k g o (kgrow k g (number n) (mass b n) * totalArea b n) (koxid k g (number n) (mass b n) * totalArea b n) /\
    pahs m' = pahSourcesOf k g (pahs m).
Proof. exact C29_. Qed.
Print Assumptions C29_sect_mass.

(** ** C30 *)
Theorem C30_sect_number : forall m m' s s' g k b n F c st st' eig,
  isSect m b F -> goodBins b -> hasAll m k -> okAll k -> valid s g n -> length n = length b ->
  regular k g (number n) (mass b n) -> located st F c -> setSourceTerms st eig m s = Ok (st', m', s') ->
  let o := nucl k g (dimerHits k g b n) in
  exists q, soots m' = map Fin q /\ length q = length b /\
    number q = oN1 o / el b 0
    + (kgrow k g (number n) (mass b n) * binArea b n (lastBin b) + condensed k g b n o (lastBin b)) / el b (lastBin b)
    - koxid k g (number n) (mass b n) * binArea b n 0 / el b 0
    - 1 / 2 * Sum (length b) (fun i => Sum (length b) (fun j => kernel k g (el b i) (el b j) * el n i * el n j))
    + 1 / 2 * Sum (length b) (fun i => Sum (length b) (fun j => if Nat.leb (lastBin b) (binOf c b (el b i + el b j))
          then kernel k g (el b i) (el b j) * el n i * el n j * ((el b i + el b j) / el b (lastBin b) - 1) else 0)).
Proof. exact C30_. Qed.
Print Assumptions C30_sect_number.

(** coagulation alone *)
Theorem C30_coagulation_only : forall m m' s s' g k b n F c st st' eig,
  isSect m b F -> goodBins b -> hasAll m k -> okAll k -> valid s g n -> length n = length b ->
  regular k g (number n) (mass b n) -> located st F c -> setSourceTerms st eig m s = Ok (st', m', s') ->
  mN k = N_NONE -> mG k = G_NONE -> mO k = O_NONE ->
  exists q, soots m' = map Fin q /\ length q = length b /\ mass b q = 0 /\
    ((forall i j, (i < length b)%nat -> (j < length b)%nat -> el n i <> 0 -> el n j <> 0 ->
        (binOf c b (el b i + el b j) < lastBin b)%nat) ->
     number q = - (1 / 2) * Sum (length b) (fun i => Sum (length b) (fun j => kernel k g (el b i) (el b j) * el n i * el n j))).
Proof. exact C30_only. Qed.
Print Assumptions C30_coagulation_only.

Example C30_case : exists (m : model (N:=XR)) s g k n, let b := geometric 100 2 4 in
  isSect m b 2 /\ goodBins b /\ hasAll m k /\ okAll k /\ valid s g n /\ length n = length b /\ regular k g (number n) (mass b n) /\
  mN k = N_NONE /\ mG k = G_NONE /\ mO k = O_NONE /\ mC k <> C_NONE /\ located None 2 (/ ln 2) /\ el n 0 = 1 /\
  (forall i j, (i < length b)%nat -> (j < length b)%nat -> el n i <> 0 -> el n j <> 0 -> (binOf (/ ln 2) b (el b i + el b j) < lastBin b)%nat) /\
  forall eig, exists r, setSourceTerms None eig m s = Ok r.
Proof. exact case_only. Qed.

(** ** C31 *)
(** with its own constant every call of a model built by the constructors returns,
    its sources are those of [sectSource] and the constant stays its own *)
Theorem C31_own_constant : forall m s g k c0 F ns n st eig, (0 < c0)%Z -> doubleAbove1 F -> sane ns ->
  let b := geometric c0 F ns in
  isSect m b F -> hasAll m k -> okAll k -> valid s g n -> length n = ns -> regular k g (number n) (mass b n) -> ownConst st F ->
  let o := nucl k g (dimerHits k g b n) in
  exists m' s' st', setSourceTerms st eig m s = Ok (st', m', s') /\ ownConst st' F /\ isSect m' b F /\ hasAll m' k /\
    soots m' = map Fin (map (sectSource k g b n (/ ln F) o) (seq 0 ns)).
Proof. exact C31_own_. Qed.
Print Assumptions C31_own_constant.

(** and the bin found for each pair is the one whose interval contains the product *)
Theorem C31_brackets : forall c0 F ns, (0 < c0)%Z -> doubleAbove1 F -> sane ns -> forall i j, (i < ns)%nat -> (j < ns)%nat ->
  let b := geometric c0 F ns in let m := el b i + el b j in let t := binOf (/ ln F) b m in
  ((t < lastBin b)%nat -> el b t <= m < el b (S t) /\ 0 < shareLow b t m <= 1) /\
  ((lastBin b <= t)%nat -> el b (lastBin b) <= m).
Proof. exact C31_bracket. Qed.
Print Assumptions C31_brackets.

(** a sectional model run first fixes the constant for all later ones *)
Theorem C31_first_model_wins : forall m1 m1' s1 s1' g1 k1 b1 n1 F1 eig st1,
  isSect m1 b1 F1 -> goodBins b1 -> hasAll m1 k1 -> okAll k1 -> mC k1 <> C_NONE -> valid s1 g1 n1 -> length n1 = length b1 ->
  regular k1 g1 (number n1) (mass b1 n1) -> 0 < F1 -> F1 <> 1 ->
  setSourceTerms None eig m1 s1 = Ok (st1, m1', s1') -> st1 = Some (Fin (/ ln F1)).
Proof. exact C31_shared. Qed.
Print Assumptions C31_first_model_wins.

(** after a model with growth factor 2, one with growth factor 4 gives an empty bin
    a negative source: the share of the lower bin is 7/6 *)
Theorem C31_second_model_refuted : forall m1 m1' s1 s1' g1 k1 b1 n1 eig st1 m2 s2 g k c0 n0,
  isSect m1 b1 2 -> goodBins b1 -> hasAll m1 k1 -> okAll k1 -> mC k1 <> C_NONE -> valid s1 g1 n1 -> length n1 = length b1 ->
  regular k1 g1 (number n1) (mass b1 n1) -> setSourceTerms None eig m1 s1 = Ok (st1, m1', s1') ->
  let b := geometric c0 4 4 in let n := [n0; 0; 0; 0] in
  (0 < c0)%Z -> isSect m2 b 4 -> hasAll m2 k -> okAll k -> mC k <> C_NONE -> valid s2 g n ->
  regular k g (number n) (mass b n) -> 0 < n0 -> massCutoff < el b 0 ->
  exists m' s' x, setSourceTerms st1 eig m2 s2 = Ok (st1, m', s') /\ nth_error (soots m') 2 = Some (Fin x) /\ x < 0.
Proof. exact C31_refuted. Qed.
Print Assumptions C31_second_model_refuted.
Theorem C31_second_model_share : forall c0, (0 < c0)%Z -> let b := geometric c0 4 4 in
  binOf (/ ln 2) b (el b 0 + el b 0) = 1%nat /\ shareLow b 1 (el b 0 + el b 0) = 7 / 6.
Proof. exact (fun c0 H => conj (two_bin c0 H) (two_share c0 H)). Qed.
Print Assumptions C31_second_model_share.

Example C31_refuted_case : exists m1 m1' s1 s1' g1 k1 b1 n1 st1 m2 s2 g k c0 n0, forall eig,
  let b := geometric c0 4 4 in let n := [n0; 0; 0; 0] in
  isSect m1 b1 2 /\ goodBins b1 /\ hasAll m1 k1 /\ okAll k1 /\ mC k1 <> C_NONE /\ valid s1 g1 n1 /\ length n1 = length b1 /\
  regular k1 g1 (number n1) (mass b1 n1) /\ setSourceTerms None eig m1 s1 = Ok (st1, m1', s1') /\
  (0 < c0)%Z /\ isSect m2 b 4 /\ hasAll m2 k /\ okAll k /\ mC k <> C_NONE /\ valid s2 g n /\
  regular k g (number n) (mass b n) /\ 0 < n0 /\ massCutoff < el b 0.
Proof. exact case_two. Qed.

(** ** C32 *)
Theorem C32_empty_bin : forall m s g k c0 F ns n st eig, (0 < c0)%Z -> doubleAbove1 F -> sane ns ->
  let b := geometric c0 F ns in
  isSect m b F -> hasAll m k -> okAll k -> valid s g n -> length n = ns -> regular k g (number n) (mass b n) -> ownConst st F ->
  forall j, (j < ns)%nat -> el n j = 0 ->
  exists m' s' st' x, setSourceTerms st eig m s = Ok (st', m', s') /\ ownConst st' F /\ nth_error (soots m') j = Some (Fin x) /\ 0 <= x.
Proof. exact C32_. Qed.
Print Assumptions C32_empty_bin.

(** C29-C32: soot in bins 0 and 2, bin 1 empty; with and without PAH *)
Example C32_case : forall nm, nm = N_LL \/ nm = N_PAH -> exists (m : model (N:=XR)) s g k n, let b := geometric 100 2 4 in
  isSect m b 2 /\ hasAll m k /\ okAll k /\ mN k = nm /\ mC k <> C_NONE /\ valid s g n /\ length n = 4%nat /\
  regular k g (number n) (mass b n) /\ el n 0 = 1 /\ el n 1 = 0 /\ el n 2 = 1 /\ goodBins b /\ doubleAbove1 2 /\ sane 4 /\
  forall eig, exists r, setSourceTerms None eig m s = Ok r.
Proof. exact case_own. Qed.

(** ** C56 *)
(** for these growth factors the first sectional coagulation in the process is
    undefined behaviour (conversion of a value out of range) on every state *)
Theorem C56_growth_factor_refuted : forall nsoot n gr ox co Ntar ta F c (m : model (N:=XR)), (0 < c)%Z -> co <> C_NONE ->
  F < 0 \/ 1 / 2 <= F <= 1 -> constructEnum P_SECT nsoot n gr ox co Ntar ta (Fin F) c = Ok m ->
  forall eig s r, setSourceTerms None eig m s <> Ok r.
Proof. exact C56_enum. Qed.
Print Assumptions C56_growth_factor_refuted.
Theorem C56_growth_factor_pointers_refuted : forall nsoot nu gr ox co Ntar ta F c (m : model (N:=XR)), (0 < c)%Z -> co_mech co <> C_NONE ->
  F < 0 \/ 1 / 2 <= F <= 1 -> constructPtr P_SECT nsoot nu gr ox co Ntar ta (Fin F) c = Ok m ->
  forall eig s r, setSourceTerms None eig m s <> Ok r.
Proof. exact C56_ptr. Qed.
Print Assumptions C56_growth_factor_pointers_refuted.
(** the constructor accepts every growth factor *)
Theorem C56_accepted : forall F : xr, exists m, constructEnum (N:=XR) P_SECT 4 N_LL G_LL O_LL C_FM 0 T_NONE F 100 = Ok m.
Proof. exact C56_accepts. Qed.
Print Assumptions C56_accepted.
