(** Properties C12-C15: coagulation kernels. *)
From Coq Require Import ZArith List Bool Reals.
From Verif Require Import Num Defs State Coag XR F64 SpecState SpecChem SpecCoag NumLaws CoagProofs StateXR.
Import ListNotations.

(** every normal return of setState with real positive scalars gives a [gasState] *)
Example gasState_reached : forall (s s' : state (N:=XR)) a t p rho mu,
  call s a = SetOk s' -> aT a = Fin t -> aP a = Fin p -> arho a = Fin rho -> amu a = Fin mu ->
  gasState s' t p rho mu.
Proof. exact gasState_of_call. Qed.

(** ** C12 *)
Theorem C12_kernels_symmetric : forall (N : Num),
  (forall x y : num, nadd x y = nadd y x) -> (forall x y : num, nmul x y = nmul y x) ->
  forall (c : coagObj) (s : state) (m1 m2 : num), coagRate c s m1 m2 = coagRate c s m2 m1.
Proof. exact @coag_sym. Qed.
Print Assumptions C12_kernels_symmetric.

Theorem C12_kernels_symmetric_binary64 : forall lm (c : coagObj (N:=F64 lm)) (s : state) (m1 m2 : num),
  coagRate c s m1 m2 = coagRate c s m2 m1.
Proof. exact (fun lm => @coag_sym (F64 lm) F64_add_comm F64_mul_comm). Qed.
Print Assumptions C12_kernels_symmetric_binary64.

(** ** C13 *)
Open Scope R_scope.
Theorem C13_kernel_formulas : forall (s : state (N:=XR)) t p rho mu, gasState s t p rho mu ->
  forall (c : coagObj) f m1 m2, 0 < f -> co_FM c = Fin f -> massCutoff < m1 -> massCutoff < m2 ->
  coagRate c s (Fin m1) (Fin m2) =
  Fin match co_class c with
      | C_FM => betaFM f t m1 m2
      | C_CONTINUUM => betaC (slipLinear p rho mu) t mu m1 m2
      | C_HM => betaHM f t p rho mu m1 m2
      | C_FUCHS => betaFuchs f t p rho mu m1 m2
      | _ => 0
      end.
Proof. exact kernels. Qed.
Print Assumptions C13_kernel_formulas.

Theorem C13_kernels_positive : forall (s : state (N:=XR)) t p rho mu, gasState s t p rho mu ->
  forall (c : coagObj) f m1 m2, 0 < f -> co_FM c = Fin f -> massCutoff < m1 -> massCutoff < m2 ->
  co_class c = C_FM \/ co_class c = C_CONTINUUM \/ co_class c = C_HM \/ co_class c = C_FUCHS ->
  exists v, coagRate c s (Fin m1) (Fin m2) = Fin v /\ 0 < v.
Proof. exact C13_pos. Qed.
Print Assumptions C13_kernels_positive.

Theorem C13_kernels_zero_below_cutoff : forall (c : coagObj (N:=XR)) s m1 m2,
  m1 <= massCutoff \/ m2 <= massCutoff -> coagRate c s (Fin m1) (Fin m2) = Fin 0.
Proof. exact C13_zero. Qed.
Print Assumptions C13_kernels_zero_below_cutoff.

(** ** C14 *)
Theorem C14_transition_below_limits : forall (s : state (N:=XR)) t p rho mu, gasState s t p rho mu ->
  forall f m1 m2, 0 < f -> massCutoff < m1 -> massCutoff < m2 ->
  exists fm cont hm fu hc,
    coagRate (with_f C_FM f) s (Fin m1) (Fin m2) = Fin fm /\
    coagRate (with_f C_CONTINUUM f) s (Fin m1) (Fin m2) = Fin cont /\
    coagRate (with_f C_HM f) s (Fin m1) (Fin m2) = Fin hm /\
    coagRate (with_f C_FUCHS f) s (Fin m1) (Fin m2) = Fin fu /\
    hm < fm /\ hm < cont /\ fu < fm /\ 0 < hc < cont /\ / hm = / fm + / hc.
Proof. exact C14_limits. Qed.
Print Assumptions C14_transition_below_limits.

(** ** C15 *)
Theorem C15_multiplier : forall (s : state (N:=XR)) t p rho mu, gasState s t p rho mu ->
  forall f k m1 m2, 0 < f -> 1 < k -> massCutoff < m1 -> massCutoff < m2 ->
  exists fm cont hm hm' fu fu',
    coagRate (with_f C_FM f) s (Fin m1) (Fin m2) = Fin fm /\
    coagRate (with_f C_FM (k * f)) s (Fin m1) (Fin m2) = Fin (k * fm) /\
    coagRate (with_f C_CONTINUUM f) s (Fin m1) (Fin m2) = Fin cont /\
    coagRate (with_f C_CONTINUUM (k * f)) s (Fin m1) (Fin m2) = Fin cont /\
    coagRate (with_f C_HM f) s (Fin m1) (Fin m2) = Fin hm /\
    coagRate (with_f C_HM (k * f)) s (Fin m1) (Fin m2) = Fin hm' /\
    coagRate (with_f C_FUCHS f) s (Fin m1) (Fin m2) = Fin fu /\
    coagRate (with_f C_FUCHS (k * f)) s (Fin m1) (Fin m2) = Fin fu' /\
    hm < hm' < k * hm /\ fu < fu' < k * fu.
Proof. exact C15_scaling. Qed.
Print Assumptions C15_multiplier.

Theorem C15_multiplier_zero : forall (s : state (N:=XR)) t p rho mu, gasState s t p rho mu ->
  forall k m1 m2, k = C_FM \/ k = C_HM \/ k = C_FUCHS ->
  coagRate (with_f k 0) s (Fin m1) (Fin m2) = Fin 0.
Proof. exact C15_zero_multiplier. Qed.
Print Assumptions C15_multiplier_zero.

(** hypotheses of C13-C15 met: a reachable state, masses above the cutoff *)
Example C13_hyps : exists (s : state (N:=XR)) t p rho mu,
  gasState s t p rho mu /\ massCutoff < 1 /\ co_FM (newCoag (N:=XR) C_HM) = Fin 1.
Proof. exact coag_case. Qed.
