(** C48 on extended reals. *)
From Coq Require Import ZArith List Bool Reals Lra Lia.
From Verif Require Import Num Defs State Coag Nucl Growth Oxid Tar SootModel Calls XR XRLemmas SpecChem SpecValid SpecSect SpecSafe StateXR ValidProofs GasProofs SectProofs SectRun SectMain SectCases NoneMain.
Import ListNotations.
Local Open Scope R_scope.

Lemma zeroLaws_XR : zeroLaws XR.
Proof.
  split. { change (@nZ XR 0) with (Fin 0). xsimp. f_equal. lra. }
  intros i Hi. assert (E : exists x, nth i (@gasSpMW XR) (nZ 0) = Fin x).
  { do 11 (destruct i as [|i]; [eexists; match goal with |- nth ?i _ _ = _ => exact (nth_gasMW (nth i allGas C_)) end|]). lia. }
  destruct E as (x & E). rewrite E. rewrite (X_MW C_). change (@nZ XR 0) with (Fin 0). change (@nZ XR 1) with (Fin 1). xsimp. 
  f_equal. unfold Rdiv. ring.
Qed.
Lemma zeroBins_XR p n nt nu gr ox co ta f k (m : model (N:=XR)) : (p = P_SECT -> 0 < f) -> constructEnum p n nu gr ox co nt ta (Fin f) k = Ok m -> zeroBins m.
Proof.
  intros HF EB P b Hb. assert (E : sm_psd m = p /\ sm_mBins m = initBins p n (Fin f) k).
  { unfold constructEnum, build in EB. destruct (mkNuclEnum nu), (mkGrowEnum gr), (mkOxidEnum ox), (mkCoagEnum co), (mkTarEnum ta); cbn [bind] in EB; try discriminate EB.
    destruct (derivedCheck _ _ _ _); cbn [bind] in EB; try discriminate EB. 
    apply (f_equal (fun r => match r with Ok x => x | _ => m end)) in EB. rewrite <- EB. auto. }
  destruct E as (E1 & E2). rewrite E1 in P. subst p. cbn [initBins] in E2. rewrite set_mBins_val in E2 by auto. rewrite E2 in Hb. apply in_map_iff in Hb. destruct Hb as (x & <- & _).
  change (@nZ XR 0) with (Fin 0). xsimp. f_equal. ring.
Qed.
