(** C63: time loops whose solver holds negative soot variables. *)
From Coq Require Import ZArith List Bool Reals Lra Lia.
From Verif Require Import Num Defs State Coag Nucl Growth Oxid Tar SootModel Qmom Calls XR SpecValid SpecRates SpecPah SpecPsd SpecSect SpecMomic SpecFinite SpecSign ValidProofs MonoMain MomicCases SignMain.
Import ListNotations.
Local Open Scope R_scope.

(** all models (LOGN without PAH, MOMIC without PAH and with continuum coagulation): whatever the signs of the soot variables, every call returns finite sources,
    those for the variables with the negative ones replaced by zero *)
Theorem C63_any_sign : forall p n nu gr ox co nt ta F c (m : model (N:=XR)),
  goodConfig p n nu co ta F c -> constructEnum p n nu gr ox co nt ta (Fin F) c = Ok m ->
  forall l, (p = P_MOMIC -> co = C_CONTINUUM /\ nu <> N_PAH) -> (p = P_LOGN -> nu <> N_PAH) ->
  (forall x, In x l -> anySign p (mkMechs nu gr ox co 1) (geometric c F n) n nt x) ->
  runActions (None, m, newState n nt) (actionsOf l) =
    runActions (None, m, newState n nt) (actionsOf (map (fun x => mkStep (spGas x) (nonNegative (spSoot x)) (spTar x) (spEig x)) l)) /\
  exists st' m' s', runActions (None, m, newState n nt) (actionsOf l) = Ok (st', m', s') /\ finiteSources m'.
Proof. exact any_sign_same. Qed.
Print Assumptions C63_any_sign.
(** MOMIC with free-molecular or harmonic-mean coagulation: one moment that is zero or negative gives NaN *)
Theorem C63_overshoot_refuted : forall n nu gr ox co nt ta F c (m : model (N:=XR)) l g soot tar eig,
  let k := mkMechs nu gr ox co 1 in
  goodConfig P_MOMIC n nu co ta F c -> nu <> N_PAH -> co <> C_CONTINUUM -> constructEnum P_MOMIC n nu gr ox co nt ta (Fin F) c = Ok m ->
  (forall x, In x l -> goodStep P_MOMIC k (geometric c F n) n nt x) ->
  anySign P_MOMIC k (geometric c F n) n nt (mkStep g soot tar eig) -> 0 < el soot 0 -> (exists x, In x soot /\ x <= 0) ->
  exists st' m' s', runActions (None, m, newState n nt) (actionsOf l ++ [setTo g soot tar; ASrc eig]) = Ok (st', m', s') /\ nth_error (soots m') 0 = Some NaN.
Proof. exact spoilt_by_overshoot. Qed.
Print Assumptions C63_overshoot_refuted.

(** cases: negative mass in a quadrature model, a negative moment in MOMIC *)
Example C63_any_sign_case : forall eig, exists m : model (N:=XR),
  goodConfig P_QMOM 4 N_LL C_FM T_NONE 2 100 /\ constructEnum P_QMOM 4 N_LL G_LL O_LL C_FM 0 T_NONE (Fin 2) 100 = Ok m /\
  anySign P_QMOM (mkMechs N_LL G_LL O_LL C_FM 1) (geometric 100 2 4) 4 0 (mkStep demoGas [2; -1; 3; -5] [] eig).
Proof.
  intros eig. eexists. split; [split; [left; repeat split; discriminate|split; [reflexivity|right; lia]]|]. split; [reflexivity|].
  split; [exact demo_physical|]. split; [reflexivity|]. split; [reflexivity|]. split; [intros y []|]. intros [H|H]; discriminate H.
Qed.
Example C63_overshoot_case : forall eig, exists m : model (N:=XR),
  goodConfig P_MOMIC 4 N_LL C_FM T_NONE 2 100 /\ constructEnum P_MOMIC 4 N_LL G_LL O_LL C_FM 0 T_NONE (Fin 2) 100 = Ok m /\
  anySign P_MOMIC (mkMechs N_LL G_LL O_LL C_FM 1) (geometric 100 2 4) 4 0 (mkStep demoGas [2; 1; -3; 5] [] eig) /\ 0 < el [2; 1; -3; 5] 0 /\ exists x, In x [2; 1; -3; 5] /\ x <= 0.
Proof.
  intros eig. eexists. split; [split; [left; repeat split; discriminate|split; [reflexivity|cbn; lia]]|]. split; [reflexivity|].
  split; [split; [exact demo_physical|]; split; [reflexivity|]; split; [reflexivity|]; split; [intros y []|]; intros [H|H]; discriminate H|].
  split; [unfold el; cbn [nth]; lra|]. exists (-3). split; [right; right; now left|lra].
Qed.
