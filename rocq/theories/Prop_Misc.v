(** Properties C50 (C interface) and C51 (AJ_RED tar cracking). *)
From Coq Require Import ZArith List Reals.
From Verif Require Import Num Defs State Tar SootModel CInterface XR F64 SpecState SpecTar NumLaws MiscProofs.
Import ListNotations.

(** ** C50 *)
Theorem C50_call_equivalent : forall (N : Num) (s : state) t p rho mu yg yp sv ns tv nt cm,
  (10 <= length yg)%nat -> (6 <= length yp)%nat -> (0 <= ns <= Z.of_nat (length sv))%Z -> (0 <= nt <= Z.of_nat (length tv))%Z ->
  setState_C s t p rho mu yg yp sv ns tv nt cm =
  setState s t p rho mu (firstn 10 yg) (firstn 6 yp) (firstn (Z.to_nat ns) sv) ns (firstn (Z.to_nat nt) tv) nt (nZ 100).
Proof. exact @C50_call. Qed.
Print Assumptions C50_call_equivalent.

Theorem C50_after_call : forall (N : Num), cmpLaws N -> forall (s s' : state) t p rho mu yg yp sv ns tv nt cm,
  (10 <= length yg)%nat -> (6 <= length yp)%nat -> (0 <= ns <= Z.of_nat (length sv))%Z -> (0 <= nt <= Z.of_nat (length tv))%Z ->
  setState_C s t p rho mu yg yp sv ns tv nt cm = SetOk s' ->
  cMin s' = nZ 100 /\ getGasSpC_C s' CO2 = UB OutOfBounds /\ getGasSpP_C s' CO2 = UB OutOfBounds /\
  get_yGas_C s' CO2 = UB OutOfBounds /\
  forall sp, sp <> CO2 -> exists y, nth_error yg (gasIdx sp) = Some y /\ get_yGas_C s' sp = Ok y.
Proof. exact @C50_after. Qed.
Print Assumptions C50_after_call.

(** the law hypothesis holds for binary64 *)
Theorem C50_laws_binary64 : forall lm, cmpLaws (F64 lm).
Proof. exact F64_cmpLaws. Qed.
Print Assumptions C50_laws_binary64.

(** the cMin given by the caller is not the one stored *)
Theorem C50_cMin_respected_refuted : exists (s s' : state (N:=XR)) t p rho mu yg yp sv ns tv nt,
  (11 <= length yg)%nat /\ (6 <= length yp)%nat /\ (0 <= ns <= Z.of_nat (length sv))%Z /\ (0 <= nt <= Z.of_nat (length tv))%Z /\
  setState_C s t p rho mu yg yp sv ns tv nt (Fin 50) = SetOk s' /\ cMin s' <> Fin 50.
Proof. exact C50_case. Qed.
Print Assumptions C50_cMin_respected_refuted.

(** ** C51 *)
Local Open Scope R_scope.
Theorem C51_cracking_formula : forall (s : state (N:=XR)) t rho n0 y,
  T s = Fin t -> 0 < t -> rhoGas s = Fin rho -> 0 < rho -> nth_error (tarVar s) 0 = Some (Fin n0) ->
  nth_error (yGas s) (gasIdx H2) = Some (Fin y) -> 0 <= y ->
  crackRate (newTar T_AJ_RED) s = Ok (Fin (crackingReduced t n0)).
Proof. exact C51_value. Qed.
Print Assumptions C51_cracking_formula.

Theorem C51_hydrogen_irrelevant : forall (s1 s2 : state (N:=XR)) t rho n0 y1 y2,
  T s1 = Fin t -> T s2 = Fin t -> 0 < t -> rhoGas s1 = Fin rho -> rhoGas s2 = Fin rho -> 0 < rho ->
  nth_error (tarVar s1) 0 = Some (Fin n0) -> nth_error (tarVar s2) 0 = Some (Fin n0) ->
  nth_error (yGas s1) (gasIdx H2) = Some (Fin y1) -> nth_error (yGas s2) (gasIdx H2) = Some (Fin y2) -> 0 <= y1 -> 0 <= y2 ->
  crackRate (newTar T_AJ_RED) s1 = crackRate (newTar T_AJ_RED) s2.
Proof. exact C51_h2. Qed.
Print Assumptions C51_hydrogen_irrelevant.

Example C51_hyps : exists (s : state (N:=XR)) t rho n0 y,
  T s = Fin t /\ 0 < t /\ rhoGas s = Fin rho /\ 0 < rho /\ nth_error (tarVar s) 0 = Some (Fin n0) /\
  nth_error (yGas s) (gasIdx H2) = Some (Fin y) /\ 0 < y /\ 0 < n0.
Proof. exact C51_case. Qed.
