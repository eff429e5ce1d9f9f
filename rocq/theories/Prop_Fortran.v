(** Property C79: what the Fortran module hands to the C functions and back. *)
From Coq Require Import ZArith List String.
From Verif Require Import Fortran SpecFortran FortranProofs.
Import ListNotations.
Local Open Scope string_scope.
Local Open Scope Z_scope.

(** Under the usual compilers every exported routine outside [garbled] reaches the C
    function of its name with the caller's arguments, each in the parameter of its
    name; constructors make an object of the class they are named after and hand its
    address back; the pointers of deleted objects become null; nothing else of the
    caller's changes. *)
Theorem C79_delivered : forall (D : Type) pl w (st : store D) r,
  usual pl -> In w wrappers -> In (w_name w) exported -> ~ In (w_name w) garbled -> typedCall w st ->
  exists f got st', callFortran pl w st r = Some (f, got, st') /\ In f cFunctions /\ behind (w_name w) f /\
    got = map (fun p => Some (meant st (fst p))) (c_params f) /\
    (forall x, freed f x -> st' x = FvPtr 0) /\
    (forall cls a, c_body f = New cls a ->
       cls = w_name w /\ a = map fst (c_params f) /\ exists x, output w x /\ st' x = ofResult r) /\
    (forall x, ~ freed f x -> ~ (output w x /\ exists cls a, c_body f = New cls a) -> st' x = st x).
Proof. exact @C79_delivered_. Qed.
Print Assumptions C79_delivered.

Example C79_delivered_case : exists w (st : store Z), In w wrappers /\ w_name w = "setState" /\ typedCall w st /\
  In (w_name w) exported /\ ~ In (w_name w) garbled /\ usual plainPlat /\
  exists f st', callFortran plainPlat w st (CvPtr 0) =
    Some (f, map Some [CvPtr 7; CvDouble 1; CvDouble 1; CvDouble 1; CvDouble 1; CvArray "yGas_"; CvArray "yPAH_";
                       CvArray "sootVar_"; CvInt 2; CvArray "tarVar_"; CvInt 2; CvDouble 1], st').
Proof. exact C79_case_. Qed.

(** A C function that returns something has its result handed back, outside [lost]. *)
Theorem C79_returned : forall (D : Type) pl w (st : store D) r f got st',
  usual pl -> In w wrappers -> In (w_name w) exported -> ~ In (w_name w) garbled -> ~ In (w_name w) lost -> typedCall w st ->
  callFortran pl w st r = Some (f, got, st') -> c_ret f <> None -> exists x, output w x /\ st' x = ofResult r.
Proof. exact @C79_returned_. Qed.
Print Assumptions C79_returned.

(** The routines in [garbled] never hand over all their arguments, on any platform. *)
Theorem C79_arguments_refuted : forall (D : Type) pl w (st : store D) r,
  In w wrappers -> In (w_name w) garbled -> typedCall w st ->
  exists f got st', callFortran pl w st r = Some (f, got, st') /\ In None got.
Proof. exact @C79_garbled_. Qed.
Print Assumptions C79_arguments_refuted.

Example C79_arguments_case : exists w (st : store Z), In w wrappers /\ w_name w = "tar_delete" /\ typedCall w st /\
  In (w_name w) exported /\ In (w_name w) garbled /\
  exists f st', c_body f = Delete ["tar_ptr"] /\ callFortran plainPlat w st (CvPtr 0) = Some (f, [None], st').
Proof. exact C79_tar_case_. Qed.

(** The getters in [lost] call a C function that returns a double; whatever it
    returns, the caller's variables are what they were. *)
Theorem C79_results_refuted : forall (D : Type) pl w (st : store D),
  keepsOut pl = true -> In w wrappers -> In (w_name w) lost ->
  exists f got, c_ret f = Some CDouble /\
    forall r, exists st', callFortran pl w st r = Some (f, got, st') /\ forall x, st' x = st x.
Proof. exact @C79_lost_. Qed.
Print Assumptions C79_results_refuted.

Example C79_results_case : exists w (st : store Z), In w wrappers /\ w_name w = "get_T" /\ typedCall w st /\
  In (w_name w) exported /\ In (w_name w) lost.
Proof. exact C79_lost_case_. Qed.

(** Every C function is reachable through an exported name except the constructor
    of the AJ_RED tar model; no exported routine makes such an object. *)
Theorem C79_exported : forall f, In f cFunctions -> c_name f <> "tarModel_AJ_RED_C_interface" ->
  exists w, In w wrappers /\ In (w_name w) exported /\ w_callee w = c_name f.
Proof. exact C79_exported_. Qed.
Print Assumptions C79_exported.
Theorem C79_AJ_RED_refuted : forall (D : Type) pl w (st : store D) r f got st' args,
  In w wrappers -> In (w_name w) exported -> callFortran pl w st r = Some (f, got, st') ->
  c_body f <> New "tarModel_AJ_RED" args.
Proof. exact @C79_hidden_. Qed.
Print Assumptions C79_AJ_RED_refuted.

(** The counts of the constructors are passed as 32-bit integers to 64-bit
    parameters, so they arrive right only when the upper half is zero. *)
Theorem C79_count : forall (D : Type) pl w (st : store D) r f got st' k x,
  keepsOut pl = true -> In w wrappers -> In (w_name w) exported -> ~ In (w_name w) garbled -> typedCall w st ->
  callFortran pl w st r = Some (f, got, st') -> nth_error (c_params f) k = Some (x, CSize) ->
  exists z, st x = FvInt z /\ nth_error got k = Some (Some (CvInt (z + 2 ^ 32 * upperHalf pl))).
Proof. exact @C79_count_. Qed.
Print Assumptions C79_count.
Theorem C79_count_refuted : exists pl w (st : store Z) f st', keepsOut pl = true /\ In w wrappers /\
  w_name w = "sootModel_MONO" /\ typedCall w st /\ In (w_name w) exported /\ ~ In (w_name w) garbled /\
  st "nsoot_" = FvInt 2 /\ exists got, callFortran pl w st (CvPtr 9) = Some (f, got, st') /\
  nth_error (c_params f) 0 = Some ("nsoot_", CSize) /\ nth_error got 0 = Some (Some (CvInt 4294967298)).
Proof. exact C79_count_case_. Qed.
Print Assumptions C79_count_refuted.

(** Whatever becomes of intent(out) arguments, the routines outside [garbled] and
    [outPassed] hand over the caller's arguments. *)
Theorem C79_any_compiler : forall (D : Type) pl w (st : store D) r,
  upperHalf pl = 0 -> In w wrappers -> In (w_name w) exported -> ~ In (w_name w) garbled -> ~ In (w_name w) outPassed -> typedCall w st ->
  exists f st', callFortran pl w st r = Some (f, map (fun p => Some (meant st (fst p))) (c_params f), st') /\ In f cFunctions /\ behind (w_name w) f.
Proof. exact @C79_any_. Qed.
Print Assumptions C79_any_compiler.
(** Those in [outPassed], setSourceTerms above all, declare their object intent(out):
    where such an argument becomes undefined, as the Fortran standard has it, the C
    function receives no object. *)
Theorem C79_source_terms_refuted : forall (D : Type) pl w (st : store D) r,
  keepsOut pl = false -> In w wrappers -> In (w_name w) outPassed -> typedCall w st ->
  exists f got st', callFortran pl w st r = Some (f, got, st') /\ nth_error got 0 = Some None.
Proof. exact @C79_outs_. Qed.
Print Assumptions C79_source_terms_refuted.
Example C79_source_terms_case : exists w (st : store Z), In w wrappers /\ w_name w = "setSourceTerms" /\ typedCall w st /\
  In (w_name w) exported /\ keepsOut (mkPlat false 0) = false.
Proof. exact C79_source_case_. Qed.
