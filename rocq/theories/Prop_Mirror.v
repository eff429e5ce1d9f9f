(** C90: the quadrature method with four moments and moments that belong to no population. *)
From Coq Require Import ZArith List Reals Lra Lia.
From Verif Require Import Num Defs State Coag Nucl Growth Oxid Tar SootModel Qmom Calls XR SpecState SpecChem SpecCoag SpecValid SpecRates SpecGas SpecPah SpecPsd SpecSect SpecQmom SpecStep SpecMirror ValidProofs QmomSame ClosureProofs MirrorProofs.
Import ListNotations.
Local Open Scope R_scope.

(** moments and their mirror image give the same nodes and the same sources of everything, whatever the eigen-solver *)
Theorem C90_mirror : forall m s s2 g k M eig st, readyQmom m s g k M 2 -> readyQmom m s2 g k (mirror M) 2 -> 0 < el M 0 -> el M 0 * el M 2 <> el M 1 ^ 2 ->
  exists m1 m2 s1' s2' w x, setSourceTerms st eig m s = Ok (st, m1, s1') /\ setSourceTerms st eig m s2 = Ok (st, m2, s2') /\
    nodesAre s1' w x /\ nodesAre s2' w x /\ soots m1 = soots m2 /\ gases m1 = gases m2 /\ pahs m1 = pahs m2.
Proof. exact mirror_l. Qed.
Print Assumptions C90_mirror.
(** the mirror image of moments with a positive variance belongs to no population *)
Theorem C90_impossible : forall M W X, 0 < el M 0 -> el M 1 ^ 2 < el M 0 * el M 2 -> population W X -> impossible (mirror M) /\ momentsOf W X 4 <> mirror M.
Proof. intros M W X P V PO. pose proof (proj1 (mirror_side M P) V) as I. exact (conj I (nobody W X (mirror M) PO I)). Qed.
Print Assumptions C90_impossible.
(** growth only: from the moments of any population with two or more sizes, an explicit step leads to
    positive moments that belong to no population exactly when it is longer than [longest] *)
Theorem C90_long_step : forall m s g k W X eig st, population W X -> (2 <= length X)%nat -> readyQmom m s g k (momentsOf W X 4) 2 -> growthOnly k -> honest eig 2 ->
  let M := momentsOf W X 4 in let K := kgrow k g (el M 0) (el M 1) * areaCoef in 0 < K ->
  exists m' s' w x q, setSourceTerms st eig m s = Ok (st, m', s') /\ nodesAre s' w x /\ population w x /\ momentsOf w x 4 = M /\ soots m' = map Fin q /\
    0 < longest K M w x /\ forall dt, 0 <= dt ->
      (forall r, (r < 4)%nat -> 0 < el (euler dt M q) r) /\ (impossible (euler dt M q) <-> longest K M w x < dt).
Proof. exact step_l. Qed.
Print Assumptions C90_long_step.

(** particles of masses 1 and 3, one of each: moments 2, 4, 10, 28, mirror image 2, 4, 6, 4 *)
Example C90_case : exists m s s2, let k := mkMechs N_NONE G_LL O_NONE C_NONE 1 in
  constructEnum P_QMOM 4 N_NONE G_LL O_NONE C_NONE 0 T_NONE (Fin 2) 100 = Ok m /\ population [1; 1] [1; 3] /\ momentsOf [1; 1] [1; 3] 4 = [2; 4; 10; 28] /\
  mirror [2; 4; 10; 28] = [2; 4; 6; 4] /\ readyQmom m s demoGas k [2; 4; 10; 28] 2 /\ readyQmom m s2 demoGas k (mirror [2; 4; 10; 28]) 2 /\
  growthOnly k /\ honest eig2 2 /\ 0 < kgrow k demoGas 2 4 * areaCoef.
Proof.
  assert (A : nonneg [2; 4; 10; 28]) by (intros y [<-|[<-|[<-|[<-|[]]]]]; lra).
  assert (B : nonneg (mirror [2; 4; 10; 28])) by (rewrite two_mirror; intros y [<-|[<-|[<-|[<-|[]]]]]; lra).
  destruct (grow_only_case [2; 4; 10; 28] eq_refl A) as (m & s & E & _ & R1). destruct (grow_only_case (mirror [2; 4; 10; 28]) eq_refl B) as (m' & s2 & E' & _ & R2).
  rewrite E in E'. apply (f_equal (fun r => match r with Ok x => x | _ => m end)) in E'. subst m'.
  exists m, s, s2. cbv zeta. split; [exact E|]. split; [exact two_nodes|]. split; [exact two_moments|]. split; [exact two_mirror|]. split; [exact R1|]. split; [exact R2|].
  split; [repeat split|]. split; [exact eig2_honest|]. apply Rmult_lt_0_compat; [apply grow_only_rate; lra|exact areaCoef_pos'].
Qed.
