(** Properties C08, C09, C52: configurations and names. *)
From Coq Require Import ZArith List String Lia.
From Verif Require Import Num Defs State Coag Nucl Growth Oxid Tar SootModel SpecConfig SpecChem XR ConfigProofs.
Import ListNotations.

(** ** C08 *)
Theorem C08_enum_configurations : forall (N : Num) p ns n g o c nt t (F : num) k,
  (realMechs n g o c t /\ documented p ns c t ->
     exists m, constructEnum p ns n g o c nt t F k = Ok m /\
       sm_psd m = p /\ sm_nsoot m = ns /\ sm_Ntar m = nt /\
       List.length (sootSources (sm_sources m)) = ns /\ List.length (gasSources (sm_sources m)) = 11%nat /\
       List.length (pahSources (sm_sources m)) = 6%nat /\ List.length (tarSources (sm_sources m)) = nt) /\
  (~ (realMechs n g o c t /\ documented p ns c t) ->
     exists e, constructEnum p ns n g o c nt t F k = Throw e).
Proof. exact @C08_main. Qed.
Print Assumptions C08_enum_configurations.

Theorem C08_pointer_configurations : forall (N : Num) p ns nu gr ox co nt ta (F : num) k,
  (documented p ns (co_mech co) (ta_mech ta) ->
     exists m, constructPtr p ns nu gr ox co nt ta F k = Ok m /\
       sm_psd m = p /\ sm_nsoot m = ns /\ sm_Ntar m = nt /\
       sm_nucl m = nu /\ sm_grow m = gr /\ sm_oxid m = ox /\ sm_coag m = co /\ sm_tar m = ta /\
       List.length (sootSources (sm_sources m)) = ns /\ List.length (gasSources (sm_sources m)) = 11%nat /\
       List.length (pahSources (sm_sources m)) = 6%nat /\ List.length (tarSources (sm_sources m)) = nt) /\
  (~ documented p ns (co_mech co) (ta_mech ta) ->
     exists e, constructPtr p ns nu gr ox co nt ta F k = Throw e).
Proof. exact @C08_ptr. Qed.
Print Assumptions C08_pointer_configurations.

(** ** C09 *)
Theorem C09_reported_types : forall (N : Num) p ns n g o c nt t (F : num) k m,
  constructEnum p ns n g o c nt t F k = Ok m ->
  nu_mech (sm_nucl m) = n /\ gr_mech (sm_grow m) = g /\ co_mech (sm_coag m) = c /\ ta_mech (sm_tar m) = t /\
  ox_mech (sm_oxid m) = (match o with O_FAIR => O_LL | _ => o end).
Proof. exact @C09_main. Qed.
Print Assumptions C09_reported_types.

(** a configuration meeting the hypotheses of C08 and C09, and one that does not *)
Example C08_hyps : realMechs N_PAH G_HACA O_FAIR C_HM T_NONE /\ documented P_QMOM 6 C_HM T_NONE /\
  ~ documented P_QMOM 5 C_HM T_NONE.
Proof.
  split; [repeat split; discriminate|]. split; [exact (doc_qmom 3 C_HM ltac:(repeat constructor))|].
  intros H; inversion H as [| | k ? Hk E| | |]. Lia.lia.
Qed.

(** ** C52 *)
Theorem C52_gas_names : forall g s i,
  (gasSpMapSE s = Some g <-> gasSpMapES g = s) /\
  (gasSpMapIS i = Some s <-> exists g, gasIdx g = i /\ gasSpMapES g = s) /\
  formula (gasSpMapES g) = (Z.to_nat (atomsC g), Z.to_nat (atomsH g), Z.to_nat (atomsO g)).
Proof. exact (fun g s i => conj (C52_inv g s) (conj (C52_idx i s) (C52_form g))). Qed.
Print Assumptions C52_gas_names.

Theorem C52_biomass_names : forall b s, b <> sw_hc ->
  (bioMapSE s = Some b <-> bioMapES b = s) /\ bioMapIS (bioIdx b) = Some b.
Proof. exact C52_bio_good. Qed.
Print Assumptions C52_biomass_names.

Theorem C52_biomass_names_inverse_refuted :
  exists b, bioMapSE (bioMapES b) = None /\ forall s, bioMapSE s = Some b -> bioMapES b <> s.
Proof. exact C52_bio_bad. Qed.
Print Assumptions C52_biomass_names_inverse_refuted.
