(** C88: MOMIC's fractional moments: uniqueness of the interpolation, and the surface it gives for growth. *)
From Coq Require Import ZArith List Bool Reals Lra Lia.
From Verif Require Import Num Defs State Coag Nucl SootModel Momic Calls XR SpecCoag SpecValid SpecRates SpecPsd SpecSect SpecQmom SpecMomic SpecClosure ValidProofs ClosureProofs.
Import ListNotations.
Local Open Scope R_scope.

(** whatever polynomial passes through the logarithms of the moments gives the fractional moment *)
Theorem C88_unique : forall M c r, (3 <= length M)%nat -> SpecMomic.allPos M ->
  let n := if Rle_dec 0 r then length M else 3%nat in
  (length c <= n)%nat -> (forall j, (j < n)%nat -> poly c (INR j) = ln (el M j) / ln 10) ->
  exists row, set_diffTable (N:=XR) (length M) (map Fin M) = Ok row /\ momMr (N:=XR) (length M) row (Fin r) = Fin (Rpower 10 (poly c r)).
Proof. exact unique_l. Qed.
Print Assumptions C88_unique.
(** and there is one *)
Theorem C88_exists : forall M r, let n := if Rle_dec 0 r then length M else 3%nat in
  exists c, (length c <= n)%nat /\ forall j, (j < n)%nat -> poly c (INR j) = ln (el M j) / ln 10.
Proof. exact exists_l. Qed.
Print Assumptions C88_exists.
(** no population has more surface than equal spheres of the same number and mass *)
Theorem C88_population : forall w x, population w x -> w <> [] ->
  surfaceOf w x <= equalSurface (nodeMoment w x 0) (nodeMoment w x 1).
Proof. exact jensen. Qed.
Print Assumptions C88_population.
(** three moments obeying Cauchy's inequality: growth keeps that bound *)
Theorem C88_three_moments : forall (m : model (N:=XR)) s g k a b c st eig,
  readyMomic m s g k [a; b; c] -> SpecMomic.allPos [a; b; c] -> mN k = N_NONE -> mO k = O_NONE -> b ^ 2 <= a * c ->
  exists m' y, setSourceTerms st eig m s = Ok (st, m', s) /\ soots m' = map Fin y /\ length y = 3%nat /\
    el y 1 <= kgrow k g a b * equalSurface a b.
Proof. exact three_l. Qed.
Print Assumptions C88_three_moments.
(** four moments: exactly when the fourth is not too large *)
Theorem C88_four_moments : forall (m : model (N:=XR)) s g k a b c d st eig,
  readyMomic m s g k [a; b; c; d] -> SpecMomic.allPos [a; b; c; d] -> mN k = N_NONE -> mO k = O_NONE -> 0 < kgrow k g a b ->
  exists m' y, setSourceTerms st eig m s = Ok (st, m', s) /\ soots m' = map Fin y /\ length y = 4%nat /\
    (el y 1 <= kgrow k g a b * equalSurface a b <-> (b * d / c ^ 2) ^ 4 <= (a * c / b ^ 2) ^ 13).
Proof. exact four_l. Qed.
Print Assumptions C88_four_moments.
(** with the four moments of an actual population growth can exceed what any population of that number and mass allows *)
Theorem C88_bound_refuted : exists w x (m : model (N:=XR)) s g k, population w x /\ readyMomic m s g k (momentsOf w x 4) /\ forall st eig,
  exists m' y, setSourceTerms st eig m s = Ok (st, m', s) /\ soots m' = map Fin y /\
    forall w' x', population w' x' -> nodeMoment w' x' 0 = nodeMoment w x 0 -> nodeMoment w' x' 1 = nodeMoment w x 1 ->
      kgrow k g (nodeMoment w x 0) (nodeMoment w x 1) * surfaceOf w' x' < el y 1.
Proof. exact over_l. Qed.
Print Assumptions C88_bound_refuted.

(** cases: a line through three moments; models with three and four moments built by the constructor *)
Example C88_line : poly [0; 1] (INR 0) = ln 1 / ln 10 /\ poly [0; 1] (INR 1) = ln 10 / ln 10 /\ poly [0; 1] (INR 2) = ln (10 * 10) / ln 10.
Proof.
  assert (0 < ln 10) by (rewrite <- ln_1; apply ln_increasing; lra).
  rewrite ln_1, ln_mult by lra. cbn [poly]. change (INR 0) with 0. change (INR 1) with 1. change (INR 2) with 2. repeat split; field; lra.
Qed.
Example C88_cases : exists (m3 m4 : model (N:=XR)) s3 s4,
  constructEnum P_MOMIC 3 N_NONE G_LIN O_NONE C_FM 0 T_NONE (Fin 2) 100 = Ok m3 /\
  readyMomic m3 s3 demoGas (mkMechs N_NONE G_LIN O_NONE C_FM 1) [2; 3; 7] /\ SpecMomic.allPos [2; 3; 7] /\ 3 ^ 2 <= 2 * 7 /\
  constructEnum P_MOMIC 4 N_NONE G_LIN O_NONE C_FM 0 T_NONE (Fin 2) 100 = Ok m4 /\
  readyMomic m4 s4 demoGas (mkMechs N_NONE G_LIN O_NONE C_FM 1) [2; 3; 7; 18] /\ SpecMomic.allPos [2; 3; 7; 18] /\
  0 < kgrow (mkMechs N_NONE G_LIN O_NONE C_FM 1) demoGas 2 3 /\ (3 * 18 / 7 ^ 2) ^ 4 <= (2 * 7 / 3 ^ 2) ^ 13.
Proof.
  assert (A : SpecMomic.allPos [2; 3; 7]) by (intros z [<-|[<-|[<-|[]]]]; lra).
  assert (B : SpecMomic.allPos [2; 3; 7; 18]) by (intros z [<-|[<-|[<-|[<-|[]]]]]; lra).
  destruct (grow_case [2; 3; 7]) as (m3 & s3 & E3 & R3). { cbn; lia. } { intros z Hz. apply Rlt_le. auto. }
  destruct (grow_case [2; 3; 7; 18]) as (m4 & s4 & E4 & R4). { cbn; lia. } { intros z Hz. apply Rlt_le. auto. }
  exists m3, m4, s3, s4. split; [exact E3|]. split; [exact R3|]. split; [exact A|]. split; [lra|].
  split; [exact E4|]. split; [exact R4|]. split; [exact B|]. split; [apply grow_some|]. lra.
Qed.
