(** Properties C33-C37: the quadrature method of moments. *)
From Coq Require Import ZArith List Reals Permutation.
From Verif Require Import Num Defs State Nucl Growth Oxid Coag Tar SootModel Qmom Calls XR SpecState SpecChem SpecCoag SpecValid SpecRates SpecGas
  SpecPah SpecPsd SpecSect SpecQmom ValidProofs QmomFinal QmomCases QmomSame.
Import ListNotations.
Local Open Scope R_scope.

(** ** C33 *)
(** [eig] is arbitrary: it may return anything, infinities and NaN included *)
Theorem C33_nodes_whatever_solver : forall m s g k soot p eig st, readyQmom m s g k soot p -> (mC k = C_NONE \/ (p <= 17)%nat) ->
  exists m' s' w x, setSourceTerms st eig m s = Ok (st, m', s') /\ nodesAre s' w x /\ length w = p /\ length x = p /\ nonneg w /\ nonneg x /\
    (el soot 0 = 0 -> w = repeat 0 p /\ x = repeat 0 p).
Proof. exact C33_l. Qed.
Print Assumptions C33_nodes_whatever_solver.
(** what the constructor and setState give, for every even number of moments *)
Example C33_case : forall soot p, (1 <= p <= 50)%nat -> length soot = (2 * p)%nat -> nonneg soot ->
  exists m s, constructEnum P_QMOM (2 * p) N_PAH G_LL O_LL C_FM 0 T_NONE (Fin 2) 100 = Ok m /\
    call (newState (2 * p) 0) (argsOf demoGas soot []) = SetOk s /\ readyQmom m s demoGas (mkMechs N_PAH G_LL O_LL C_FM 1) soot p.
Proof. exact (fun soot p => quad_case N_PAH G_LL O_LL soot p (or_intror (or_introl eq_refl)) (or_introl eq_refl) (or_introl eq_refl)). Qed.

(** ** C34 *)
(** Gauss quadrature: with an honest solver and realizable moments the nodes are
    positive and distinct and reproduce all given moments *)
Theorem C34_gauss : forall m s g k soot p eig st, readyQmom m s g k soot p -> (mC k = C_NONE \/ (p <= 17)%nat) -> honest eig p -> realizable p soot ->
  exists m' s' w x, setSourceTerms st eig m s = Ok (st, m', s') /\ nodesAre s' w x /\ length w = p /\ population w x /\
    forall r, (r < 2 * p)%nat -> nodeMoment w x r = el soot r.
Proof. exact C34_l. Qed.
Print Assumptions C34_gauss.
(** moments of a population with at least [p] sizes; exactly [p] sizes are recovered *)
Theorem C34_population : forall m s g k W X p eig st, population W X -> (p <= length X)%nat -> readyQmom m s g k (momentsOf W X (2 * p)) p ->
  (mC k = C_NONE \/ (p <= 17)%nat) -> honest eig p ->
  exists m' s' w x, setSourceTerms st eig m s = Ok (st, m', s') /\ nodesAre s' w x /\ length w = p /\ population w x /\
    (forall r, (r < 2 * p)%nat -> nodeMoment w x r = nodeMoment W X r) /\ (length X = p -> Permutation (combine w x) (combine W X)).
Proof. exact C34_pop_l. Qed.
Print Assumptions C34_population.
(** after down-selection to [q] nodes the first [2 q] moments are reproduced; for
    one node this needs neither solver nor realizability *)
Theorem C34_down_selected : forall m s g k soot p eig st r m' s' w x, readyQmom m s g k soot p -> setSourceTerms st eig m s = Ok (r, m', s') -> nodesAre s' w x ->
  0 < el soot 0 ->
  exists q w1 x1, (1 <= q <= p)%nat /\ length w1 = q /\ length x1 = q /\ w = w1 ++ repeat 0 (p - q) /\ x = x1 ++ repeat 0 (p - q) /\
    ((q = 1%nat \/ honest eig q /\ positiveForm q (el soot)) -> forall i, (i < 2 * q)%nat -> nodeMoment w x i = el soot i).
Proof. exact C34_kept_l. Qed.
Print Assumptions C34_down_selected.

(** particles of masses 1 and 3, one of each; [eig2] is an honest solver of order 2 *)
Example C34_case : forall nm, nm = N_LL \/ nm = N_PAH -> exists m s g k,
  constructEnum P_QMOM 4 nm G_LL O_LL C_FM 0 T_NONE (Fin 2) 100 = Ok m /\ population [1; 1] [1; 3] /\
  readyQmom m s g k (momentsOf [1; 1] [1; 3] (2 * 2)) 2 /\ realizable 2 (momentsOf [1; 1] [1; 3] (2 * 2)) /\ mN k = nm /\ mC k <> C_NONE /\ honest eig2 2.
Proof. exact case_two_nodes. Qed.

(** ** C35 *)
(** all sources of a call in terms of the nodes it leaves in the state *)
Theorem C35_sources : forall m s g k soot p eig st r m' s' w x, readyQmom m s g k soot p -> setSourceTerms st eig m s = Ok (r, m', s') -> nodesAre s' w x ->
  r = st /\ soots m' = map (fun r => Fin (qmomSource k g (el soot 0) (el soot 1) w x (nucl k g (nodeHits k g w x)) r)) (seq 0 (2 * p)).
Proof. exact C35_l. Qed.
Print Assumptions C35_sources.
(** the coagulation part: no mass, fewer particles, higher moments grow *)
Theorem C35_mass : forall k g w x, smoluchowski k g w x 1 = 0.
Proof. exact smol_1. Qed.
Print Assumptions C35_mass.
Theorem C35_number : forall s g k soot w x, valid s g soot -> mC k <> C_size -> 0 < mF k -> nonneg w -> smoluchowski k g w x 0 <= 0.
Proof. exact smol_0_neg. Qed.
Print Assumptions C35_number.
Theorem C35_higher : forall s g k soot w x r, valid s g soot -> mC k <> C_size -> 0 < mF k -> nonneg w -> nonneg x -> (2 <= r)%nat ->
  0 <= smoluchowski k g w x r.
Proof. exact smol_up. Qed.
Print Assumptions C35_higher.
(** from 36 moments on every call with coagulation throws *)
Theorem C35_throws_from_36 : forall m s g k soot p eig st, readyQmom m s g k soot p -> mC k <> C_NONE -> (18 <= p)%nat ->
  setSourceTerms st eig m s = Throw ERunBinomial.
Proof. exact C35_throws. Qed.
Print Assumptions C35_throws_from_36.
Example C35_case : forall p, (1 <= p <= 50)%nat -> exists m s g k, readyQmom m s g k (momentsOf [1] [1] (2 * p)) p /\ mC k <> C_NONE /\ 0 < kgrow k g 1 1.
Proof. exact case_any. Qed.

(** ** C36 *)
Theorem C36_zero_node : forall m s g k soot p eig st r m' s' w x i, readyQmom m s g k soot p -> setSourceTerms st eig m s = Ok (r, m', s') -> nodesAre s' w x ->
  (i < p)%nat -> el w i = 0 \/ el x i = 0 ->
  let o := nucl k g (nodeHits k g w x) in
  soots m' = map (fun r => Fin (oJ o * nucMass (oGas o) ^ r + condense k g w x o r + smoluchowski k g w x r)) (seq 0 (2 * p)) /\
  gasBudget m' k g o 0 0.
Proof. exact C36_zero_l. Qed.
Print Assumptions C36_zero_node.
Theorem C36_positive_nodes : forall m s g k soot p eig st r m' s' w x, readyQmom m s g k soot p -> setSourceTerms st eig m s = Ok (r, m', s') -> nodesAre s' w x ->
  (forall i, (i < p)%nat -> 0 < el w i /\ 0 < el x i) ->
  let o := nucl k g (nodeHits k g w x) in
  let kk := kgrow k g (el soot 0) (el soot 1) - koxid k g (el soot 0) (el soot 1) in
  soots m' = map (fun r => Fin (oJ o * nucMass (oGas o) ^ r + condense k g w x o r
     + kk * areaCoef * INR r * Sum p (fun i => el w i * Rpower (el x i) (INR r - 1 / 3)) + smoluchowski k g w x r)) (seq 0 (2 * p)) /\
  gasBudget m' k g o (kgrow k g (el soot 0) (el soot 1) * areaCoef * Sum p (fun i => el w i * Rpower (el x i) (1 - 1 / 3))) (koxid k g (el soot 0) (el soot 1) * areaCoef * Sum p (fun i => el w i * Rpower (el x i) (1 - 1 / 3))).
Proof. exact C36_pos_l. Qed.
Print Assumptions C36_positive_nodes.
(** soot of one size and four or more moments: whatever the growth and oxidation
    rates are, the sources hold no trace of them *)
Theorem C36_monodisperse_refuted : forall m s g k N mm p eig st, 0 < N -> 0 < mm -> (2 <= p)%nat -> readyQmom m s g k (momentsOf [N] [mm] (2 * p)) p ->
  (mC k = C_NONE \/ (p <= 17)%nat) -> noticesNaN eig ->
  let w := N :: repeat 0 (p - 1) in let x := mm :: repeat 0 (p - 1) in let o := nucl k g (nodeHits k g w x) in
  exists m' s', setSourceTerms st eig m s = Ok (st, m', s') /\ nodesAre s' w x /\
    soots m' = map (fun r => Fin (oJ o * nucMass (oGas o) ^ r + condense k g w x o r + smoluchowski k g w x r)) (seq 0 (2 * p)) /\
    gasBudget m' k g o 0 0.
Proof. exact C36_lost. Qed.
Print Assumptions C36_monodisperse_refuted.
Example C36_case : exists m s g k,
  0 < 1 /\ (2 <= 2)%nat /\ readyQmom m s g k (momentsOf [1] [1] (2 * 2)) 2 /\ mC k <> C_NONE /\ noticesNaN eig2 /\ 0 < kgrow k g 1 1.
Proof. exact case_mono_soot. Qed.

(** ** C37 *)
Theorem C37_two_moments : forall (mM mQ : model (N:=XR)) s g k M0 M1 st eig, readyQmom mQ s g k [M0; M1] 1 -> 0 < M0 ->
  sm_psd mM = P_MONO -> noTar mM -> sm_nucl mM = sm_nucl mQ -> sm_grow mM = sm_grow mQ -> sm_oxid mM = sm_oxid mQ -> sm_coag mM = sm_coag mQ ->
  exists m1 m2 s', setSourceTerms st eig mM s = Ok (st, m1, s') /\ setSourceTerms st eig mQ s = Ok (st, m2, s') /\
    soots m1 = soots m2 /\ gases m1 = gases m2 /\ (pahs mM = pahs mQ -> pahs m1 = pahs m2) /\
    exists a b, soots m1 = [Fin a; Fin b].
Proof. exact C37_l. Qed.
Print Assumptions C37_two_moments.
Example C37_case : forall nm, nm = N_LL \/ nm = N_PAH -> exists (mM mQ : model (N:=XR)) s g k M0 M1, readyQmom mQ s g k [M0; M1] 1 /\ 0 < M0 /\
  sm_psd mM = P_MONO /\ noTar mM /\ sm_nucl mM = sm_nucl mQ /\ sm_grow mM = sm_grow mQ /\ sm_oxid mM = sm_oxid mQ /\ sm_coag mM = sm_coag mQ /\ pahs mM = pahs mQ /\
  mN k = nm /\ massCutoff < M1 / M0.
Proof. exact case_same. Qed.
