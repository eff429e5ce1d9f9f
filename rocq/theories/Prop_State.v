(** Properties C01-C06: the state object. *)
From Coq Require Import ZArith List Bool Reals.
From Verif Require Import Num Defs State SpecState SpecChem XR F64 StateProofs NumLaws StateXR.
Import ListNotations.

(** the number systems the generic theorems below apply to *)
Example cmpLaws_binary64 : forall lm, cmpLaws (F64 lm).
Proof. exact F64_cmpLaws. Qed.
Example cmpLaws_real : cmpLaws XR.
Proof. exact XR_cmpLaws. Qed.
Example ordLaws_binary64 : forall lm, ordLaws (F64 lm).
Proof. exact F64_ordLaws. Qed.
Example ordLaws_real : ordLaws XR.
Proof. exact XR_ordLaws. Qed.
(** a call that returns normally, and one that throws *)
Example some_call_returns : exists (s : state (N:=XR)) a s', call s a = SetOk s'.
Proof. exact some_ok. Qed.
Example some_call_throws : exists (s : state (N:=XR)) a e s', call s a = SetThrow e s'.
Proof. exact some_throw. Qed.

(** ** C01 *)
Theorem C01_setState_accepts : forall (N : Num), cmpLaws N -> forall (s : state) (a : args N),
  call s a <> SetUB ->
  ((exists s', call s a = SetOk s') <-> accepts s a) /\
  (forall s', call s a = SetOk s' -> stored s a s') /\
  ((exists s', call s a = SetOk s') \/ exists e s', call s a = SetThrow e s').
Proof. exact @C01_accepts. Qed.
Print Assumptions C01_setState_accepts.

(** ** C02 *)
Theorem C02_stored_positive : forall (N : Num), cmpLaws N -> ordLaws N -> forall (s : state) (a : args N) s',
  call s a = SetOk s' ->
  (notNaN (aT a) -> positive (T s')) /\ (notNaN (aP a) -> positive (P s')) /\
  (notNaN (arho a) -> positive (rhoGas s')) /\ (notNaN (amu a) -> positive (muGas s')) /\
  (notNaN (acMin a) -> positive (cMin s')) /\
  (forall x, In x (sootVar s') \/ In x (tarVar s') -> notNaN x -> nleb (nZ 0) x = true) /\
  (forall y, In y (yGas s') -> notNaN y -> nleb y (nZ 1) = true) /\
  (forall y, In y (yPah s') -> notNaN y -> nleb (nZ 0) y = true /\ nleb y (nZ 1) = true) /\
  (notNaN (fold_left nadd (yPah s') (nZ 0)) -> nleb (fold_left nadd (yPah s') (nZ 0)) (nZ 1) = true).
Proof. exact @C02_pos. Qed.
Print Assumptions C02_stored_positive.

(** a NaN temperature is accepted and stored *)
Theorem C02_nan_refuted : exists (s : state (N:=XR)) a s', call s a = SetOk s' /\ T s' = NaN.
Proof. exact C02_nan. Qed.
Print Assumptions C02_nan_refuted.

(** a negative gas mass fraction is accepted and stored *)
Theorem C02_negative_gas_refuted : exists (s : state (N:=XR)) a s',
  call s a = SetOk s' /\ nth_error (yGas s') 0 = Some (Fin (-1)).
Proof. exact C02_neg. Qed.
Print Assumptions C02_negative_gas_refuted.

(** ** C03 *)
Theorem C03_partial_update : forall (N : Num), cmpLaws N -> forall (s : state) (a : args N) e s',
  call s a = SetThrow e s' -> firstFails s a e /\ afterThrow s a e s'.
Proof. exact @C03_throw. Qed.
Print Assumptions C03_partial_update.

Theorem C03_atomic_refuted : exists (s : state (N:=XR)) a e s', call s a = SetThrow e s' /\ T s' <> T s.
Proof. exact C03_notAtomic. Qed.
Print Assumptions C03_atomic_refuted.

(** ** C04 *)
Theorem C04_setState_out_of_bounds : forall (N : Num), cmpLaws N -> forall (s : state) (a : args N),
  call s a = SetUB <->
  scalarsOk a /\
  ((Z.of_nat (length (asoot a)) < st_nsoot s)%Z \/
   (~ negFrom (st_nsoot s) (asoot a) /\ (Z.of_nat (length (atar a)) < st_Ntar s)%Z)).
Proof. exact @C04_ub. Qed.
Print Assumptions C04_setState_out_of_bounds.

Theorem C04_two_soot_calls_refuted : exists (s s' : state (N:=XR)) a1 a2,
  s = newState 4 0 /\ call s a1 = SetOk s' /\ length (asoot a1) = 4%nat /\ ansoot a1 = 4%Z /\
  length (asoot a2) = 2%nat /\ ansoot a2 = 2%Z /\ accepts (newState 2 0) a2 /\ call s' a2 = SetUB.
Proof. exact C04_history_soot. Qed.
Print Assumptions C04_two_soot_calls_refuted.

Theorem C04_two_tar_calls_refuted : exists (s s' : state (N:=XR)) a1 a2,
  s = newState 2 1 /\ call s a1 = SetOk s' /\ aNtar a1 = 1%Z /\ length (atar a1) = 1%nat /\
  atar a2 = [] /\ aNtar a2 = 0%Z /\ accepts (newState 2 0) a2 /\ call s' a2 = SetUB.
Proof. exact C04_history_tar. Qed.
Print Assumptions C04_two_tar_calls_refuted.

(** ** C05 *)
Theorem C05_history_independent : forall (N : Num), cmpLaws N -> forall (s1 s2 : state) (a : args N),
  nonneg (asoot a) -> nonneg (atar a) -> length (yPah s1) = length (yPah s2) ->
  (st_nsoot s1 <= Z.of_nat (length (asoot a)))%Z -> (st_nsoot s2 <= Z.of_nat (length (asoot a)))%Z ->
  (st_Ntar s1 <= Z.of_nat (length (atar a)))%Z -> (st_Ntar s2 <= Z.of_nat (length (atar a)))%Z ->
  (exists r1 r2, call s1 a = SetOk r1 /\ call s2 a = SetOk r2 /\ sameUserFields r1 r2) \/
  (exists e r1 r2, call s1 a = SetThrow e r1 /\ call s2 a = SetThrow e r2).
Proof. exact @C05_same. Qed.
Print Assumptions C05_history_independent.
(** two different previous objects satisfying the hypotheses *)
Example C05_hyps : exists (s1 s2 : state (N:=XR)) a,
  st_nsoot s1 <> st_nsoot s2 /\
  nonneg (asoot a) /\ nonneg (atar a) /\ length (yPah s1) = length (yPah s2) /\
  (st_nsoot s1 <= Z.of_nat (length (asoot a)))%Z /\ (st_nsoot s2 <= Z.of_nat (length (asoot a)))%Z /\
  (st_Ntar s1 <= Z.of_nat (length (atar a)))%Z /\ (st_Ntar s2 <= Z.of_nat (length (atar a)))%Z /\
  exists r1 r2, call s1 a = SetOk r1 /\ call s2 a = SetOk r2.
Proof. exact C05_case. Qed.

Theorem C05_negative_refuted : exists (s1 s2 : state (N:=XR)) a,
  length (yPah s1) = length (yPah s2) /\
  (exists r, call s1 a = SetOk r) /\ (exists r, call s2 a = SetThrow EDomSoot r).
Proof. exact C05_negative. Qed.
Print Assumptions C05_negative_refuted.

(** ** C06 *)
Theorem C06_ideal_gas : forall (s s' : state (N:=XR)) a t p rho sp y,
  call s a = SetOk s' -> aT a = Fin t -> aP a = Fin p -> arho a = Fin rho ->
  nth_error (ayGas a) (gasIdx sp) = Some (Fin y) ->
  exists c q, getGasSpC s' sp = Ok (Fin c) /\ getGasSpP s' sp = Ok (Fin q) /\
              (c = rho * y / molarMass sp)%R /\ (q = c * (avogadro * boltzmann * t))%R.
Proof. exact C06_gas. Qed.
Print Assumptions C06_ideal_gas.

Theorem C06_ideal_gas_pah : forall (s s' : state (N:=XR)) a t p rho sp y,
  call s a = SetOk s' -> aT a = Fin t -> aP a = Fin p -> arho a = Fin rho ->
  nth_error (ayPah a) (pahIdx sp) = Some (Fin y) ->
  exists c q, get_pahSpC s' sp = Ok (Fin c) /\ get_pahSpP s' sp = Ok (Fin q) /\
              (c = rho * y / pahMolarMass sp)%R /\ (q = c * (avogadro * boltzmann * t))%R.
Proof. exact C06_pah. Qed.
Print Assumptions C06_ideal_gas_pah.
Example C06_hyps : exists (s s' : state (N:=XR)) a t p rho y,
  call s a = SetOk s' /\ aT a = Fin t /\ aP a = Fin p /\ arho a = Fin rho /\
  nth_error (ayGas a) (gasIdx C2H2) = Some (Fin y) /\ nth_error (ayPah a) (pahIdx C16H10) = Some (Fin y).
Proof. exact C06_case. Qed.
