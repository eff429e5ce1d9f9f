(** Properties C38, C40, C57 and C58: the method of moments with interpolative closure. *)
From Coq Require Import ZArith List Bool Reals Lra Lia.
From Verif Require Import Num Defs State Coag Nucl Growth Oxid Tar SootModel Momic Calls XR SpecState SpecChem SpecCoag SpecValid SpecRates SpecGas SpecPah SpecPsd SpecSect SpecQmom SpecBinomial SpecLogn SpecMomic
  CoagProofs ValidProofs PahProofs LognCases MomicFinal MomicCases.
Import ListNotations.
Local Open Scope R_scope.

(** ** C38 *)
(** the difference table is built, and the closure returns the given moments at integer orders *)
Theorem C38_given_moments : forall M, (3 <= length M)%nat -> allPos M -> exists row,
  set_diffTable (N:=XR) (length M) (map Fin M) = Ok row /\
  (forall r, momMr (N:=XR) (length M) row (Fin r) = Fin (momentAt M r)) /\
  (forall j, (j < length M)%nat -> momMr (N:=XR) (length M) row (Fin (INR j)) = Fin (el M j)).
Proof. exact C38_l. Qed.
Print Assumptions C38_given_moments.
(** lognormal moments: exact at every real order *)
Theorem C38_lognormal : forall n mu v p r, 0 < n -> (3 <= p)%nat -> exists row,
  set_diffTable (N:=XR) p (map (fun j => Fin (lognormalMoment n mu v (INR j))) (seq 0 p)) = Ok row /\
  momMr (N:=XR) p row (Fin r) = Fin (lognormalMoment n mu v r).
Proof. exact C38_lognormal_l. Qed.
Print Assumptions C38_lognormal.
(** below order 0 the moments beyond the third are ignored *)
Theorem C38_negative_orders : forall M M' r, (3 <= length M)%nat -> (3 <= length M')%nat ->
  (forall j, (j < 3)%nat -> el M j = el M' j) -> r < 0 -> momentAt M r = momentAt M' r.
Proof. exact C38_below_l. Qed.
Print Assumptions C38_negative_orders.
Example C38_case : (3 <= length [2; 3; 7; 50])%nat /\ allPos [2; 3; 7; 50] /\ momentAt [2; 3; 7; 50] (INR 3) = 50.
Proof.
  assert (allPos [2; 3; 7; 50]) by (intros x [<-|[<-|[<-|[<-|[]]]]]; lra). split; [cbn; lia|]. split; [assumption|].
  now rewrite MomicProofs.moment_node by (cbn; auto; lia).
Qed.

(** ** C40 *)
(** the whole call *)
Theorem C40_sources : forall (m : model (N:=XR)) s g k M st eig,
  readyMomic m s g k M -> allPos M -> (isP k = true -> somePah g) ->
  let o := nucl k g (momHits k g (dimerMass g) (momicMom M) 1) in
  let kk := kgrow k g (el M 0) (el M 1) - koxid k g (el M 0) (el M 1) in
  exists m', setSourceTerms st eig m s = Ok (st, m', outS k g s) /\
    soots m' = map (fun r => Fin (momicSource k g M o r)) (seq 0 (length M)) /\
    gasBudget m' k g o (kgrow k g (el M 0) (el M 1) * areaCoef * momentAt M (2 / 3)) (koxid k g (el M 0) (el M 1) * areaCoef * momentAt M (2 / 3)) /\
    pahs m' = pahSourcesOf k g (pahs m) /\ hasAll m' k /\ sm_psd m' = P_MOMIC /\ momicArrays m' (length M).
Proof. exact momic_run. Qed.
Print Assumptions C40_sources.
(** the one term kept is the documented sum for orders 0, 1, 2 *)
Theorem C40_low_orders : forall g M r, r = 0%nat \/ r = 1%nat \/ r = 2%nat -> momCo g M r = momCoDoc g M r.
Proof. exact C40_eq. Qed.
Print Assumptions C40_low_orders.
(** and falls short of it for every higher order *)
Theorem C40_high_orders : forall s g soot M r, valid s g soot -> (forall z, 0 < M z) -> (3 <= r)%nat -> momCo g M r < momCoDoc g M r.
Proof. exact C40_lt. Qed.
Print Assumptions C40_high_orders.
(** so every continuum call returns, for r >= 3, less than the documented source *)
Theorem C40_call : forall (m : model (N:=XR)) s g k M st eig r,
  readyMomic m s g k M -> allPos M -> (isP k = true -> somePah g) -> mC k = C_CONTINUUM -> (3 <= r < length M)%nat ->
  exists m' s' y, setSourceTerms st eig m s = Ok (st, m', s') /\ nth_error (soots m') r = Some (Fin y) /\
  let o := nucl k g (momHits k g (dimerMass g) (momicMom M) 1) in
  let kk := kgrow k g (el M 0) (el M 1) - koxid k g (el M 0) (el M 1) in
  y < oJ o * nucMass (oGas o) ^ r + condPart k g (momicMom M) o r + surfPart kk M r + momCoDoc g (momicMom M) r.
Proof. exact C40_call_l. Qed.
Print Assumptions C40_call.
(** the documented sum is Smoluchowski's: for the moments of any population of particles
    above the cutoff it gives the exact continuum rate *)
Theorem C40_documented : forall s g soot k w x r, valid s g soot -> mC k = C_CONTINUUM -> (forall i, (i < length w)%nat -> massCutoff < el x i) ->
  momCoDoc g (popMoment w x) r = smoluchowski k g w x r.
Proof. exact doc_smol. Qed.
Print Assumptions C40_documented.
Example C40_case : exists (m : model (N:=XR)) s, constructEnum P_MOMIC 4 N_PAH G_LL O_LL C_CONTINUUM 0 T_NONE (Fin 2) 100 = Ok m /\
  readyMomic m s demoGas (mkMechs N_PAH G_LL O_LL C_CONTINUUM 1) [2; 3; 7; 50] /\ allPos [2; 3; 7; 50] /\ somePah demoGas.
Proof.
  assert (A : allPos [2; 3; 7; 50]) by (intros x [<-|[<-|[<-|[<-|[]]]]]; lra).
  destruct (momic_case N_PAH C_CONTINUUM [2; 3; 7; 50]) as (m & s & E & _ & R); auto. { cbn; lia. } { intros y Hy. apply Rlt_le. auto. }
  exists m, s. split; [exact E|]. split; [exact R|]. split; [exact A|exact demo_pah].
Qed.

(** ** C57: n particles of one mass x *)
(** free-molecular coagulation is Smoluchowski's; continuum coagulation is Smoluchowski's for
    orders 0, 1, 2 and the share r/(2^r-2) of it for orders from 3 *)
Theorem C57_one_size : forall (m : model (N:=XR)) s g k n x p st eig,
  readyMomic m s g k (oneSize n x p) -> isP k = false -> 0 < n -> massCutoff < x -> mC k = C_FM \/ mC k = C_CONTINUUM ->
  exists m', setSourceTerms st eig m s = Ok (st, m', s) /\
  soots m' = map (fun r => Fin (oneSource k g n x (match mC k with C_FM => 1 | _ => if Nat.leb r 2 then 1 else INR r / (2 ^ r - 2) end) r)) (seq 0 p).
Proof. exact C57_call. Qed.
Print Assumptions C57_one_size.
Example C57_case : forall co, co = C_FM \/ co = C_CONTINUUM -> exists (m : model (N:=XR)) s,
  readyMomic m s demoGas (mkMechs N_LL G_LL O_LL co 1) (oneSize 5 1 6) /\ massCutoff < 1.
Proof.
  intros co H. destruct (momic_case N_LL co (oneSize 5 1 6)) as (m & s & _ & _ & R); auto. { tauto. } { cbn; lia. }
  { intros y Hy. apply Rlt_le. revert y Hy. apply one_pos; lra. }
  exists m, s. split; [exact R|exact MonoCases.cut_small].
Qed.

(** ** C58: continuum condensation *)
(** what the comments state weights each collision with mass^(r-1), the code with 1 *)
Theorem C58_population : forall s g soot y w x r, valid s g soot -> 0 < y -> (forall i, (i < length w)%nat -> 0 < el x i) ->
  let K := betaC (slipLinear (gP g) (gRho g) (gMu g)) (gT g) (gMu g) y in
  condCoDoc g y (popMoment w x) r = Sum (length w) (fun i => el w i * el x i ^ (r - 1) * K (el x i)) /\
  condCo g y (popMoment w x) = Sum (length w) (fun i => el w i * K (el x i)).
Proof. exact C58_pop. Qed.
Print Assumptions C58_population.
(** refuted for particles of one size: wrong by the factor x^(r-1) from order 2 *)
Theorem C58_weight_refuted : forall s g soot y n x p r, valid s g soot -> 0 < y -> 0 < n -> 0 < x -> (3 <= p)%nat -> (2 <= r)%nat -> x <> 1 ->
  condCo g y (momicMom (oneSize n x p)) * x ^ (r - 1) = condCoDoc g y (momicMom (oneSize n x p)) r /\
  condCo g y (momicMom (oneSize n x p)) <> condCoDoc g y (momicMom (oneSize n x p)) r.
Proof. exact C58_one. Qed.
Print Assumptions C58_weight_refuted.
Example C58_case : exists s, valid s demoGas (oneSize 5 (1 / 2) 6) /\ 1 / 2 <> 1.
Proof.
  destruct (momic_case N_PAH C_CONTINUUM (oneSize 5 (1 / 2) 6)) as (m & s & _ & _ & R); auto. { cbn; lia. }
  { intros y Hy. apply Rlt_le. revert y Hy. apply one_pos; lra. }
  exists s. split; [apply R|lra].
Qed.
