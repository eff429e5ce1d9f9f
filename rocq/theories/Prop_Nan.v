(** C91: which size models report soot variables that are not numbers. *)
From Coq Require Import ZArith List Bool Reals Lra Lia.
From Verif Require Import Num Defs State Coag Nucl Growth Oxid Tar SootModel Qmom Calls XR F64 SpecState SpecChem SpecCoag SpecValid SpecRates SpecGas SpecPah SpecPsd SpecSect SpecQmom SpecNan FrameMain ValidProofs QmomSame NanProofs NanCases.
Import ListNotations.
Local Open Scope R_scope.

(** setState stores soot values that are not numbers like any other values *)
Theorem C91_accepted : forall N, ieee N -> forall (s0 s : state (N:=N)) t p rho mu yg yp l l' ns tv nt c, length l' = length l ->
  (forall x, In x l -> nltb x (nZ 0) = false) -> (forall x, In x l' -> nltb x (nZ 0) = false \/ notNumber x) ->
  call s0 (mkArgs t p rho mu yg yp l ns tv nt c) = SetOk s -> call s0 (mkArgs t p rho mu yg yp l' ns tv nt c) = SetOk (with_sootVar s l').
Proof. exact accepted_l. Qed.
Print Assumptions C91_accepted.
(** MONO: a number that is not a number gives the same call as no soot at all, whatever the masses *)
Theorem C91_mono_number : forall N, ieee N -> forall nn gr ox co nt F c (m : model (N:=N)), constructEnum P_MONO 2 nn gr ox co nt T_NONE F c = Ok m ->
  forall st eig s x M1 M1', notNumber x ->
  sameBut [nZ 0; M1'] (setSourceTerms st eig m (with_sootVar s [x; M1])) (setSourceTerms st eig m (with_sootVar s [nZ 0; M1'])).
Proof. exact mono_number_l. Qed.
Print Assumptions C91_mono_number.
(** QMOM: likewise, whatever the eigen-solver and the other moments *)
Theorem C91_qmom_number : forall N, ieee N -> forall ns nn gr ox co nt F c (m : model (N:=N)), constructEnum P_QMOM ns nn gr ox co nt T_NONE F c = Ok m ->
  forall st eig s x M1 M1' r r', notNumber x -> (1 <= length (wts s))%nat -> (1 <= length (absc s))%nat ->
  sameBut (nZ 0 :: M1' :: r') (setSourceTerms st eig m (with_sootVar s (x :: M1 :: r))) (setSourceTerms st eig m (with_sootVar s (nZ 0 :: M1' :: r'))).
Proof. exact qmom_number_l. Qed.
Print Assumptions C91_qmom_number.
(** QMOM with four moments: a second or third moment that is not a number gives the same call as
    the moments of equal particles of the mean mass *)
Theorem C91_qmom_higher : forall nn gr ox co nt F c (m : model (N:=XR)), constructEnum P_QMOM 4 nn gr ox co nt T_NONE F c = Ok m ->
  forall st eig s a b y z, noticesNaN eig -> 0 < a -> y = NaN \/ z = NaN -> let l' := [Fin a; Fin b; Fin (b ^ 2 / a); Fin (b ^ 3 / a ^ 2)] in
  sameBut l' (setSourceTerms st eig m (with_sootVar s [Fin a; Fin b; y; z])) (setSourceTerms st eig m (with_sootVar s l')).
Proof. exact qmom_higher_l. Qed.
Print Assumptions C91_qmom_higher.
(** MONO: a mass that is not a number is reported by the source of the number if particles coagulate,
    and by the source of the mass if they grow or oxidise *)
Theorem C91_mono_mass : forall nn gr ox co nt F c (m : model (N:=XR)), constructEnum P_MONO 2 nn gr ox co nt T_NONE F c = Ok m ->
  forall st eig s a st' m' s', 0 < a -> setSourceTerms st eig m (with_sootVar s [Fin a; NaN]) = Ok (st', m', s') ->
    (co <> C_NONE -> nth_error (soots m') 0 = Some NaN) /\ (gr <> G_NONE \/ ox <> O_NONE -> nth_error (soots m') 1 = Some NaN).
Proof. exact mono_mass_l. Qed.
Print Assumptions C91_mono_mass.
(** LOGN: any moment that is not a number is reported by the source of the number in the free-molecular and
    continuum regimes, and by the source of the mass under growth or oxidation *)
Theorem C91_logn : forall nn gr ox co nt F c (m : model (N:=XR)), constructEnum P_LOGN 3 nn gr ox co nt T_NONE F c = Ok m ->
  forall st eig s M0 M1 M2 st' m' s', posOrNaN M0 -> posOrNaN M1 -> posOrNaN M2 -> M0 = NaN \/ M1 = NaN \/ M2 = NaN ->
  setSourceTerms st eig m (with_sootVar s [M0; M1; M2]) = Ok (st', m', s') ->
    (co = C_FM \/ co = C_CONTINUUM -> nth_error (soots m') 0 = Some NaN) /\ (gr <> G_NONE \/ ox <> O_NONE -> nth_error (soots m') 1 = Some NaN).
Proof. exact logn_l. Qed.
Print Assumptions C91_logn.
(** ... but coagulation by the harmonic mean hides it: all sources are zero *)
Theorem C91_logn_harmonic : forall nt F c (m : model (N:=XR)), constructEnum P_LOGN 3 N_NONE G_NONE O_NONE C_HM nt T_NONE F c = Ok m ->
  forall st eig s M0 M1 M2 st' m' s', posOrNaN M0 -> posOrNaN M1 -> posOrNaN M2 -> M0 = NaN \/ M1 = NaN \/ M2 = NaN ->
  setSourceTerms st eig m (with_sootVar s [M0; M1; M2]) = Ok (st', m', s') -> soots m' = [Fin 0; Fin 0; Fin 0].
Proof. exact logn_harmonic_l. Qed.
Print Assumptions C91_logn_harmonic.
(** SECT: a section that is not a number is reported by its own source as soon as particles grow, oxidise or coagulate *)
Theorem C91_sect : forall ns nn gr ox co nt F c (m : model (N:=XR)), constructEnum P_SECT ns nn gr ox co nt T_NONE F c = Ok m ->
  forall st eig s q st' m' s', (q < ns)%nat -> nth_error (sootVar s) q = Some NaN -> gr <> G_NONE \/ ox <> O_NONE \/ co <> C_NONE ->
  setSourceTerms st eig m s = Ok (st', m', s') -> nth_error (soots m') q = Some NaN.
Proof. exact sect_l. Qed.
Print Assumptions C91_sect.

(** models of the four kinds, states stored by setState, and calls that succeed *)
Example C91_case_mono : exists (m : model (N:=XR)) s s1 st' m' s', constructEnum P_MONO 2 N_LL G_LL O_LL C_FUCHS 0 T_NONE (Fin 2) 100 = Ok m /\
  call (newState 2 0) (argsOf demoGas [1; 1] []) = SetOk s /\ call (newState 2 0) (nanArgs demoGas [Fin 1; NaN]) = SetOk s1 /\ s1 = with_sootVar s [Fin 1; NaN] /\
  notNumber (N:=XR) NaN /\ setSourceTerms None eig2 m s1 = Ok (st', m', s').
Proof. exact case_mono. Qed.
Example C91_case_qmom : exists (m : model (N:=XR)) s s1, constructEnum P_QMOM 4 N_LL G_LL O_LL C_FM 0 T_NONE (Fin 2) 100 = Ok m /\
  call (newState 4 0) (argsOf demoGas [1; 2; 5; 14] []) = SetOk s /\ call (newState 4 0) (nanArgs demoGas [Fin 1; Fin 2; NaN; Fin 14]) = SetOk s1 /\ s1 = with_sootVar s [Fin 1; Fin 2; NaN; Fin 14] /\
  noticesNaN eig2 /\ (1 <= length (wts s))%nat /\ (1 <= length (absc s))%nat.
Proof. exact case_qmom. Qed.
Example C91_case_logn : exists (m m1 : model (N:=XR)) s s1, constructEnum P_LOGN 3 N_LL G_LL O_LL C_FM 0 T_NONE (Fin 2) 100 = Ok m /\ constructEnum P_LOGN 3 N_NONE G_NONE O_NONE C_HM 0 T_NONE (Fin 2) 100 = Ok m1 /\
  call (newState 3 0) (argsOf demoGas [1; 1; 1] []) = SetOk s /\ call (newState 3 0) (nanArgs demoGas [Fin 1; NaN; Fin 1]) = SetOk s1 /\ s1 = with_sootVar s [Fin 1; NaN; Fin 1] /\
  posOrNaN (Fin 1) /\ posOrNaN NaN /\ (exists x, setSourceTerms None eig2 m s1 = Ok x) /\ (exists x, setSourceTerms None eig2 m1 s1 = Ok x).
Proof. exact case_logn. Qed.
Example C91_case_sect : exists (m : model (N:=XR)) s s1, constructEnum P_SECT 3 N_LL G_LL O_LL C_NONE 0 T_NONE (Fin 2) 100 = Ok m /\
  call (newState 3 0) (argsOf demoGas [1; 1; 1] []) = SetOk s /\ call (newState 3 0) (nanArgs demoGas [Fin 1; NaN; Fin 1]) = SetOk s1 /\ s1 = with_sootVar s [Fin 1; NaN; Fin 1] /\
  nth_error (sootVar s1) 1 = Some NaN /\ (exists x, setSourceTerms None eig2 m s1 = Ok x).
Proof. exact case_sect. Qed.
