(** Concrete cases for C69. *)
From Coq Require Import ZArith List Bool Reals Lra Lia.
From Verif Require Import Num Defs State Coag Nucl Growth Oxid Tar SootModel Momic Calls XR XRLemmas SpecState SpecChem SpecCoag SpecValid SpecRates SpecGas SpecPah SpecPsd SpecSect SpecQmom SpecLogn SpecMomic SpecCarbon
  CoagProofs StateXR ValidProofs GasProofs RateProofs PsdProofs PahProofs MonoProofs MonoMain MonoCases PahMain SectProofs SectMain SectFinal SectBins QmomSame LognCases MomicCases CarbonMain.
Import ListNotations.
Local Open Scope R_scope.

Lemma carbon_case_sect : exists (m : model (N:=XR)) s k n, let b := geometric 100 2 4 in
  isSect m b 2 /\ goodBins b /\ hasAll m k /\ okAll k /\ isP k = true /\ somePah demoGas /\ valid s demoGas n /\ length n = length b /\
  regular k demoGas (number n) (mass b n) /\ located None 2 (/ ln 2) /\ el n 0 = 1 /\ forall eig, exists r, setSourceTerms None eig m s = Ok r.
Proof.
  destruct (sect_built N_PAH G_LL O_LL 2 ltac:(auto) ltac:(auto) ltac:(auto) ltac:(lra)) as (m & A & B & C).
  destruct (sect_state [1; 0; 1; 0] eq_refl) as (s & V). { intros x [<-|[<-|[<-|[<-|[]]]]]; lra. }
  pose proof (ok_sect N_PAH G_LL O_LL ltac:(auto) ltac:(auto) ltac:(auto)) as D.
  pose proof (reg_sect N_PAH G_LL O_LL (number [1; 0; 1; 0]) (mass (geometric 100 2 4) [1; 0; 1; 0]) ltac:(auto) ltac:(auto)) as RG.
  exists m, s, (mkMechs N_PAH G_LL O_LL C_FM 1), [1; 0; 1; 0]. cbv zeta.
  do 4 (split; [assumption|]). split; [reflexivity|]. split; [exact demo_pah|]. split; [assumption|]. split; [reflexivity|]. split; [assumption|].
  split. { right. repeat split; lra. } split; [reflexivity|]. intros eig.
  destruct (C31_own_ m s demoGas _ 100 2 4 _ None eig ltac:(lia) double2 sane4 A C D V eq_refl RG (or_introl eq_refl)) as (m' & s' & st' & E & _).
  eexists. exact E.
Qed.
(** a small enough minimum size of nuclei *)
Lemma carbon_case_small : exists (s : state (N:=XR)) g soot, valid s g soot /\ somePah g /\ gCMin g < 2 * avogadro * consumed pahAtomsC g.
Proof.
  destruct (sect_state [1; 0; 1; 0] eq_refl) as (s & V). { intros x [<-|[<-|[<-|[<-|[]]]]]; lra. }
  pose proof (consumed_pos s demoGas _ pahAtomsC V demo_pah ltac:(intros []; cbn; lia)) as P. pose proof avo_pos as PA.
  set (c := avogadro * consumed pahAtomsC demoGas). assert (0 < c) by (unfold c; now apply Rmult_lt_0_compat).
  exists (with_cMin s (Fin c)), (gasCMin demoGas c), [1; 0; 1; 0]. split; [now apply valid_cMin|]. split; [exact demo_pah|].
  change (consumed pahAtomsC (gasCMin demoGas c)) with (consumed pahAtomsC demoGas). cbn [gasCMin gCMin]. fold c. unfold c in *. lra.
Qed.
