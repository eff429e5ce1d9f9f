(** Property C82: rates and sources are continuous in the gas and soot data. *)
From Coq Require Import ZArith List Reals.
From Verif Require Import Num Defs State Nucl Growth Oxid Coag Tar SootModel Qmom Calls XR SpecChem SpecCoag SpecValid SpecRates SpecGas SpecState
  SpecPah SpecPsd SpecSites SpecCont ValidProofs PsdProofs MonoMain ContMain ContCases SpecSect SpecQmom SpecLogn ContLogn ContSect.
Import ListNotations.
Local Open Scope R_scope.

(** along states whose data converge, the rates converge to the rate of the limit; for every size model *)
Theorem C82_nucleation : forall (G : nat -> gas) g (St : nat -> state (N:=XR)) s So soot,
  (forall n, valid (St n) (G n) (So n)) -> valid s g soot -> gasTo G g -> forall coll nu, gasOnly (nu_class nu) ->
  exists r r', (forall n, nuclRate coll nu (St n) = Ok (Fin (r n), nu, St n, None)) /\ nuclRate coll nu s = Ok (Fin r', nu, s, None) /\ Un_cv r r'.
Proof. exact C82_nucl_. Qed.
Print Assumptions C82_nucleation.

Theorem C82_oxidation : forall (G : nat -> gas) g (St : nat -> state (N:=XR)) s So soot,
  (forall n, valid (St n) (G n) (So n)) -> valid s g soot -> gasTo G g -> forall ox (v : smView (N:=XR)) A0 A1 M0 M1, ox_class ox <> O_HACA ->
  (forall n, seesMoments v (So n) (A0 n) (A1 n)) -> seesMoments v soot M0 M1 ->
  exists r r', (forall n, oxidRate ox v (St n) = Ok (Fin (r n))) /\ oxidRate ox v s = Ok (Fin r') /\ Un_cv r r'.
Proof. exact C82_oxid_. Qed.
Print Assumptions C82_oxidation.

Theorem C82_growth : forall (G : nat -> gas) g (St : nat -> state (N:=XR)) s So soot,
  (forall n, valid (St n) (G n) (So n)) -> valid s g soot -> gasTo G g -> forall gr (v : smView (N:=XR)) A0 A1 M0 M1, gr_class gr <> G_HACA ->
  (forall n, seesMoments v (So n) (A0 n) (A1 n)) -> seesMoments v soot M0 M1 ->
  (forall n, 0 < A0 n) -> 0 < M0 -> 0 < M1 -> Un_cv A0 M0 -> Un_cv A1 M1 ->
  exists r r', (forall n, growRate gr v (St n) = Ok (Fin (r n))) /\ growRate gr v s = Ok (Fin r') /\ Un_cv r r'.
Proof. exact C82_grow_. Qed.
Print Assumptions C82_growth.

(** whole calls of the monodisperse model: soot and gas sources, also where the soot mass vanishes *)
Theorem C82_mono : forall (m : model (N:=XR)) k st eig (G : nat -> gas) g (St : nat -> state (N:=XR)) s (A0 A1 : nat -> R) M0 M1,
  sm_psd m = P_MONO -> hasAll m k -> okAll k -> noTar m -> mN k <> N_PAH -> mG k <> G_HACA -> mO k <> O_HACA ->
  (forall n, valid (St n) (G n) [A0 n; A1 n] /\ 0 < A0 n /\ length (wts (St n)) = 1%nat /\ length (absc (St n)) = 1%nat) ->
  valid s g [M0; M1] -> 0 < M0 -> length (wts s) = 1%nat -> length (absc s) = 1%nat ->
  gasTo G g -> Un_cv A0 M0 -> Un_cv A1 M1 -> (mC k <> C_NONE -> M1 / M0 <> massCutoff) ->
  exists (a b : nat -> R) (c : nat -> gasSp -> R) a' b' c',
    (forall n, exists m' s', setSourceTerms st eig m (St n) = Ok (st, m', s') /\ holdsAll m' (a n) (b n) (c n)) /\
    (exists m' s', setSourceTerms st eig m s = Ok (st, m', s') /\ holdsAll m' a' b' c') /\
    Un_cv a a' /\ Un_cv b b' /\ forall sp, Un_cv (fun n => c n sp) (c' sp).
Proof. exact C82_mono_. Qed.
Print Assumptions C82_mono.

(** whole calls of the lognormal model, at positive moments *)
Theorem C82_logn : forall (m : model (N:=XR)) k st eig (G : nat -> gas) g (St : nat -> state (N:=XR)) s (A0 A1 A2 : nat -> R) M0 M1 M2,
  mN k <> N_PAH -> mG k <> G_HACA -> mO k <> O_HACA ->
  (forall n, readyLogn m (St n) (G n) k (A0 n) (A1 n) (A2 n) /\ 0 < A0 n /\ 0 < A1 n /\ 0 < A2 n) ->
  readyLogn m s g k M0 M1 M2 -> 0 < M0 -> 0 < M1 -> 0 < M2 ->
  gasTo G g -> Un_cv A0 M0 -> Un_cv A1 M1 -> Un_cv A2 M2 ->
  exists (a b d : nat -> R) (c : nat -> gasSp -> R) a' b' d' c',
    (forall n, exists m' s', setSourceTerms st eig m (St n) = Ok (st, m', s') /\ soots m' = [Fin (a n); Fin (b n); Fin (d n)] /\ holdsGas (gases m') (c n)) /\
    (exists m' s', setSourceTerms st eig m s = Ok (st, m', s') /\ soots m' = [Fin a'; Fin b'; Fin d'] /\ holdsGas (gases m') c') /\
    Un_cv a a' /\ Un_cv b b' /\ Un_cv d d' /\ forall sp, Un_cv (fun n => c n sp) (c' sp).
Proof. exact C82_logn_. Qed.
Print Assumptions C82_logn.

(** whole calls of the sectional model, any bins and any number of them, at a positive number of particles *)
Theorem C82_sect : forall (m : model (N:=XR)) k st eig c F (G : nat -> gas) g (St : nat -> state (N:=XR)) s b (Q : nat -> list R) q,
  isSect m b F -> goodBins b -> located st F c -> fits c b -> hasAll m k -> okAll k -> mN k <> N_PAH -> mG k <> G_HACA -> mO k <> O_HACA ->
  (forall n, valid (St n) (G n) (Q n) /\ length (Q n) = length b /\ 0 < number (Q n)) -> valid s g q -> length q = length b -> 0 < number q ->
  gasTo G g -> (forall j, (j < length b)%nat -> Un_cv (fun n => el (Q n) j) (el q j)) ->
  exists (a : nat -> nat -> R) (d : nat -> gasSp -> R) a' d',
    (forall n, exists st' m' s', setSourceTerms st eig m (St n) = Ok (st', m', s') /\ soots m' = map (fun j => Fin (a n j)) (seq 0 (length b)) /\ holdsGas (gases m') (d n)) /\
    (exists st' m' s', setSourceTerms st eig m s = Ok (st', m', s') /\ soots m' = map (fun j => Fin (a' j)) (seq 0 (length b)) /\ holdsGas (gases m') d') /\
    (forall j, (j < length b)%nat -> Un_cv (fun n => a n j) (a' j)) /\ forall sp, Un_cv (fun n => d n sp) (d' sp).
Proof. exact C82_sect_. Qed.
Print Assumptions C82_sect.

(** where the mean mass is the smallest mass that collides, coagulation sets in with a jump *)
Theorem C82_cutoff_refuted : exists (m : model (N:=XR)) c (A1 : nat -> R) M1, 0 < c /\
  constructEnum P_MONO 2 N_NONE G_NONE O_NONE C_FM 0 T_NONE (nZ 2) 100 = Ok m /\ Un_cv A1 M1 /\ M1 / 1 = massCutoff /\
  (forall n, valid (hotOf 1800 [1; A1 n]) (hotGas 1800) [1; A1 n]) /\ valid (hotOf 1800 [1; M1]) (hotGas 1800) [1; M1] /\
  forall st eig, (forall n, exists m' s' a b, setSourceTerms st eig m (hotOf 1800 [1; A1 n]) = Ok (st, m', s') /\ soots m' = [Fin a; Fin b] /\ a <= - c) /\
    exists m' s' b, setSourceTerms st eig m (hotOf 1800 [1; M1]) = Ok (st, m', s') /\ soots m' = [Fin 0; Fin b].
Proof. exact C82_cutoff_. Qed.
Print Assumptions C82_cutoff_refuted.

Example C82_case : exists (m : model (N:=XR)) (t A0 A1 : nat -> R), constructEnum P_MONO 2 N_LL G_LL O_NSC_NEOH C_FUCHS 0 T_NONE (nZ 2) 100 = Ok m /\
  sm_psd m = P_MONO /\ hasAll m kAll /\ okAll kAll /\ noTar m /\
  (forall n, valid (hotOf (t n) [A0 n; A1 n]) (hotGas (t n)) [A0 n; A1 n] /\ 0 < A0 n /\ length (wts (hotOf (t n) [A0 n; A1 n])) = 1%nat /\ length (absc (hotOf (t n) [A0 n; A1 n])) = 1%nat) /\
  valid (hotOf 1800 [1; 1]) (hotGas 1800) [1; 1] /\ length (wts (hotOf 1800 [1; 1])) = 1%nat /\ length (absc (hotOf 1800 [1; 1])) = 1%nat /\
  gasTo (fun n => hotGas (t n)) (hotGas 1800) /\ Un_cv A0 1 /\ Un_cv A1 1 /\ 1 / 1 <> massCutoff /\ t 0%nat <> 1800 /\ A0 0%nat <> 1 /\ A1 0%nat <> 1 /\
  (forall n, seesMoments (viewOf m) [A0 n; A1 n] (A0 n) (A1 n)).
Proof. exact C82_case_. Qed.
Example C82_logn_case : exists (m : model (N:=XR)) (t A0 A1 A2 : nat -> R), constructEnum P_LOGN 3 N_LL G_LL O_NSC_NEOH C_HM 0 T_NONE (nZ 2) 100 = Ok m /\
  (forall n, readyLogn m (hotOf (t n) [A0 n; A1 n; A2 n]) (hotGas (t n)) kLog (A0 n) (A1 n) (A2 n) /\ 0 < A0 n /\ 0 < A1 n /\ 0 < A2 n) /\
  readyLogn m (hotOf 1800 [1; 2; 5]) (hotGas 1800) kLog 1 2 5 /\ gasTo (fun n => hotGas (t n)) (hotGas 1800) /\ Un_cv A0 1 /\ Un_cv A1 2 /\ Un_cv A2 5 /\
  t 0%nat <> 1800 /\ A0 0%nat <> 1 /\ A1 0%nat <> 2 /\ A2 0%nat <> 5.
Proof. exact C82_logn_case_. Qed.
Example C82_sect_case : exists (m : model (N:=XR)) (t : nat -> R) (Q : nat -> list R), constructEnum P_SECT 3 N_LL G_LL O_NSC_NEOH C_FUCHS 0 T_NONE (Fin 2) 100 = Ok m /\
  isSect m (geometric 100 2 3) 2 /\ goodBins (geometric 100 2 3) /\ located None 2 (/ ln 2) /\ fits (/ ln 2) (geometric 100 2 3) /\ hasAll m kSect /\ okAll kSect /\
  (forall n, valid (hotOf (t n) (Q n)) (hotGas (t n)) (Q n) /\ length (Q n) = length (geometric 100 2 3) /\ 0 < number (Q n)) /\
  valid (hotOf 1800 [1; 2; 3]) (hotGas 1800) [1; 2; 3] /\ 0 < number [1; 2; 3] /\ gasTo (fun n => hotGas (t n)) (hotGas 1800) /\
  (forall j, (j < 3)%nat -> Un_cv (fun n => el (Q n) j) (el [1; 2; 3] j)) /\ t 0%nat <> 1800 /\ el (Q 0%nat) 0 <> 1.
Proof. exact C82_sect_case_. Qed.
