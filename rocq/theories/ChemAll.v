(** Chemistry rates and stored sources, for every soot model. *)
From Coq Require Import ZArith List Bool Reals Lra Lia.
From Verif Require Import Num Defs State Coag Nucl Growth Oxid Tar SootModel Calls XR XRLemmas NumLaws
  SpecChem SpecCoag SpecValid SpecRates SpecGas SpecPsd SpecPah CoagProofs StateXR ValidProofs InterpProofs GasProofs RateProofs PsdProofs PahProofs MonoProofs.
Import ListNotations.
Local Open Scope R_scope.

Section S.
Context (m : model (N:=XR)) (s : state (N:=XR)) (g : gas) (k : mechs) (soot : list R) (i : R) (eff : list xr).
Context (coll : state (N:=XR) -> xr -> res (xr * list xr)).
Context (V : valid s g soot) (HM : hasAll m k) (OM : okAll k) (Hi : 0 <= i).
Context (HC : isP k = true -> coll (with_cMin s (Fin (pahCMin g))) (Fin (dimerMass g)) = Ok (Fin i, eff)).
Let o := nucl k g i.
Let m2 := outM k g m i eff.
Let s2 := outS k g s.

Lemma chem_all M0 M1 : seesMoments (viewOf m) soot M0 M1 -> regular k g M0 M1 ->
  chemRates coll m s = Ok (Fin (oJ o), Fin (kgrow k g M0 M1), Fin (koxid k g M0 M1), m2, s2).
Proof.
  intros SM RG. unfold chemRates. rewrite (runNucl_all coll m s g soot k i eff V HM OM Hi HC). cbn [bind].
  pose proof (outS_valid k s g soot i V) as V2. pose proof (outM_GOC k g m i eff (proj2 HM)) as HG.
  assert (SM2 : seesMoments (viewOf m2) soot M0 M1) by (unfold m2; rewrite outM_view; exact SM).
  pose proof (regular_out k g i M0 M1 RG) as RG2. fold m2 s2 in V2, HG |- *.
  rewrite (grow_val _ _ _ _ _ _ _ V2 HG SM2 RG2). cbn [bind].
  rewrite (oxid_val _ _ _ _ _ _ _ V2 HG SM2 RG2). cbn [bind]. now rewrite kgrow_out, koxid_out.
Qed.

Lemma on_nucl : nuclOn m2 = false -> oJ o = 0. Proof. exact (outM_off k g m i eff HM). Qed.
Lemma on_grow M0 M1 : growOn m2 = false -> kgrow k g M0 M1 = 0.
Proof. exact (goc_grow m2 g k M0 M1 (outM_GOC k g m i eff (proj2 HM))). Qed.
Lemma on_oxid M0 M1 : oxidOn m2 = false -> koxid k g M0 M1 = 0.
Proof. exact (goc_oxid m2 g k M0 M1 (outM_GOC k g m i eff (proj2 HM))). Qed.
Lemma on_coag a b : coagOn m2 = false -> kernel k g a b = 0.
Proof. pose proof OM as (_ & _ & _ & _ & OC & _). exact (goc_coag m2 g k (outM_GOC k g m i eff (proj2 HM)) OC a b). Qed.
Lemma on_pah : isPAH m2 = isP k. Proof. exact (outM_isPAH k g m i eff HM). Qed.
Lemma coag2 : sm_coag m2 = with_f (mC k) (mF k).
Proof. destruct (outM_GOC k g m i eff (proj2 HM)) as (_ & _ & E). exact E. Qed.
Lemma dimer0 : isP k = false -> oMass o = 0 /\ oConc o = 0.
Proof. unfold o, nucl. intros ->. split; reflexivity. Qed.
Lemma mNuc_val : mNucOf s2 = Fin (nucMass (oGas o)).
Proof.
  unfold mNucOf, s2. rewrite (v_cMin _ _ _ (outS_valid k s g soot i V)). fold o. xsimp. vals. reflexivity.
Qed.

Lemma finish_all L N1 G1 X1 : N1 = oN1 o ->
  let m' := finish m2 L (Fin N1) (Fin G1) (Fin X1) in
  soots m' = L /\ gasBudget m' k g o G1 (- X1) /\ pahs m' = pahSourcesOf k g (pahs m) /\
  hasAll m' k /\ sm_psd m' = sm_psd m /\ sm_tar m' = sm_tar m.
Proof.
  clear HC. intros -> m'. destruct (outM_rest k g m i eff) as (R1 & _ & _ & _ & _ & R6 & _ & R8). fold m2 in R1, R6, R8.
  split; [reflexivity|]. split; [exact (gasSrc_all k g m i eff G1 X1 HM OM)|]. split.
  - unfold pahs, m', finish, pahSourcesOf. cbn [sm_sources with_sources pahSources]. rewrite on_pah.
    destruct (isP k) eqn:E; [now apply outM_pah|]. rewrite R8. reflexivity.
  - split; [exact (outM_all k g m i eff HM)|]. split; assumption.
Qed.
End S.
Lemma budget_eq m k g o a b a' b' : gasBudget m k g o a b -> a = a' -> b = b' -> gasBudget m k g o a' b'.
Proof. now intros H -> ->. Qed.
