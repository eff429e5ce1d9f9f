(** Property C81: the fraction of surface sites that take part in the HACA reactions. *)
From Coq Require Import ZArith List Reals.
From Verif Require Import Num Defs State Nucl Growth Oxid Coag Tar SootModel Qmom Calls XR SpecChem SpecCoag SpecValid SpecRates SpecGas SpecState
  SpecPsd SpecSites ValidProofs PsdProofs SitesProofs.
Import ListNotations.
Local Open Scope R_scope.

(** up to 2153 K every site is active whatever the size of the particles (below 1 kg each) *)
Theorem C81_all_sites : forall (s : state (N:=XR)) g soot v M0 M1 gr ox, valid s g soot -> seesMoments v soot M0 M1 -> (M1 < M0 \/ M0 = 0) ->
  gr_class gr = G_HACA -> ox_class ox = O_HACA -> gT g <= 2153 ->
  growRate gr v s = Ok (Fin (addedBy g 1)) /\ oxidRate ox v s = Ok (Fin (removedBy g 1 + hitsOH g (13 / 100))).
Proof. exact C81_all_. Qed.
Print Assumptions C81_all_sites.

(** at one temperature between 2153 K and 2303 K, which depends on the mean mass, the
    surface reactions stop; below it all sites are active *)
Theorem C81_switch : forall (s : state (N:=XR)) g soot v M0 M1 gr ox, valid s g soot -> seesMoments v soot M0 M1 -> 0 < M1 < M0 ->
  gr_class gr = G_HACA -> ox_class ox = O_HACA ->
  2153 < switchT (M1 / M0) < 2303 /\
  (gT g < switchT (M1 / M0) -> growRate gr v s = Ok (Fin (addedBy g 1)) /\ oxidRate ox v s = Ok (Fin (removedBy g 1 + hitsOH g (13 / 100)))) /\
  (gT g = switchT (M1 / M0) -> growRate gr v s = Ok (Fin 0) /\ oxidRate ox v s = Ok (Fin (hitsOH g (13 / 100)))).
Proof. exact C81_switch_. Qed.
Print Assumptions C81_switch.

(** so the growth rate is not continuous in the temperature *)
Theorem C81_continuous_refuted : exists c, 0 < c /\ forall M0 M1 d, 0 < M1 < M0 -> 0 < d ->
  exists t t' (s s' : state (N:=XR)), Rabs (t - t') < d /\
    call (newState 2 0) (argsOf (hotGas t) [M0; M1] []) = SetOk s /\ call (newState 2 0) (argsOf (hotGas t') [M0; M1] []) = SetOk s' /\
    valid s (hotGas t) [M0; M1] /\ valid s' (hotGas t') [M0; M1] /\
    forall v, sv_psd v <> P_SECT -> exists r, growRate (newGrow G_HACA) v s = Ok (Fin r) /\ c <= r /\ growRate (newGrow G_HACA) v s' = Ok (Fin 0).
Proof. exact C81_jump_. Qed.
Print Assumptions C81_continuous_refuted.

(** and it is not the rate of the cited fit, which counts carbon atoms instead of kilograms *)
Theorem C81_published_refuted : forall (s : state (N:=XR)) g soot v M0 M1 gr, valid s g soot -> seesMoments v soot M0 M1 -> 0 < M1 < M0 -> gr_class gr = G_HACA ->
  1800 <= gT g <= 2153 -> 10 ^ 6 <= meanAtoms M0 M1 ->
  exists r, growRate gr v s = Ok (Fin r) /\ 0 <= addedBy g (fitted (gT g) (meanAtoms M0 M1)) <= 9 / 25 * r /\ (0 < gY g C2H2 -> 0 < gY g H_ -> 0 < r).
Proof. exact C81_published_. Qed.
Print Assumptions C81_published_refuted.

Example C81_case : exists (m : model (N:=XR)) s, constructEnum P_MONO 2 N_LL G_HACA O_HACA C_FM 0 T_NONE (nZ 2) 100 = Ok m /\
  call (newState 2 0) (argsOf (hotGas 1900) [10 ^ 15; / 10 ^ 4] []) = SetOk s /\ valid s (hotGas 1900) [10 ^ 15; / 10 ^ 4] /\
  seesMoments (viewOf m) [10 ^ 15; / 10 ^ 4] (10 ^ 15) (/ 10 ^ 4) /\ 0 < / 10 ^ 4 < 10 ^ 15 /\ 1800 <= gT (hotGas 1900) <= 2153 /\ 10 ^ 6 <= meanAtoms (10 ^ 15) (/ 10 ^ 4) /\
  0 < gY (hotGas 1900) C2H2 /\ 0 < gY (hotGas 1900) H_.
Proof. exact C81_case_. Qed.
