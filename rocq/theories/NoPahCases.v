(** C45: concrete objects without PAH. *)
From Coq Require Import ZArith List Bool Reals Lra Lia.
From Verif Require Import Num Defs State Coag Nucl Growth Oxid Tar SootModel Qmom Calls XR SpecState SpecChem SpecCoag SpecValid SpecRates SpecGas SpecPah SpecPsd SpecSect SpecQmom SpecLogn SpecMomic SpecBalance
  StateXR ValidProofs MonoMain MonoCases SectProofs SectCases SectFinal QmomSame LognFinal LognCases MomicCases NoPahMain.
Import ListNotations.
Local Open Scope R_scope.

(** the gas of [demoGas] without PAH *)
Definition dryGas : gas := mkGas 1800 101325 (1 / 5) (1 / 20000) 100 (fun _ => 1 / 20) (fun _ => 0).
Lemma dry_none : noPah dryGas. Proof. intros sp. reflexivity. Qed.
Lemma dry_any s0 soot : st_nsoot s0 = Z.of_nat (length soot) -> st_Ntar s0 = 0%Z -> length (yPah s0) = 6%nat ->
  (forall x, In x soot -> 0 <= x) ->
  exists s, call s0 (argsOf dryGas soot []) = SetOk s /\ valid s dryGas soot /\ wts s = wts s0 /\ absc s = absc s0.
Proof.
  intros A B C H. destruct (argsOf_any s0 dryGas soot [] A B C) as (s & E & V & _ & W & X & _); [| | |exact H|intros ? []|eauto].
  - repeat split; cbn [gT gP gRho gMu gCMin gY gPah dryGas]; intros; lra.
  - intros; cbn; lra.
  - unfold pahVec, allPah. cbn [map fold_left gPah dryGas]. lra.
Qed.

Lemma nopah_case_mono : exists (m m0 : model (N:=XR)) s g k M0 M1,
  sm_psd m = P_MONO /\ sm_psd m0 = P_MONO /\ hasAll m k /\ okAll k /\ isP k = true /\ noPah g /\ hasAll m0 (noNucl k) /\ noTar m /\ noTar m0 /\
  valid s g [M0; M1] /\ regular k g M0 M1 /\ 0 < M0 /\ massCutoff < M1 / M0 /\ length (wts s) = 1%nat /\ length (absc s) = 1%nat.
Proof.
  destruct (dry_any (newState 2 0) [1; 1] eq_refl eq_refl eq_refl in11) as (s & _ & V & EW & EA).
  destruct (constructEnum (N:=XR) P_MONO 2 N_PAH G_LL O_LL C_FM 0 T_NONE (nZ 2) 100) as [m| |] eqn:E; try discriminate.
  destruct (constructEnum (N:=XR) P_MONO 2 N_NONE G_LL O_LL C_FM 0 T_NONE (nZ 2) 100) as [m0| |] eqn:E0; try discriminate.
  destruct (built _ _ _ _ _ _ _ _ _ _ _ E) as (H & Hp & _ & Ht & _).
  destruct (built _ _ _ _ _ _ _ _ _ _ _ E0) as (H0 & Hp0 & _ & Ht0 & _).
  exists m, m0, s, dryGas, (mkMechs N_PAH G_LL O_LL C_FM 1), 1, 1. pose proof cut_small.
  do 3 (split; [assumption|]). split; [split; [right; reflexivity|okm]|]. split; [reflexivity|]. split; [exact dry_none|].
  do 4 (split; [assumption|]). split; [intros [K|K]; discriminate|]. split; [lra|]. split; [lra|]. rewrite EW, EA. split; reflexivity.
Qed.
Lemma nopah_case_qmom p : (1 <= p <= 50)%nat -> exists (m m0 : model (N:=XR)) s g k,
  readyQmom m s g k (momentsOf [1] [1] (2 * p)) p /\ isP k = true /\ noPah g /\ readyQmom m0 s g (noNucl k) (momentsOf [1] [1] (2 * p)) p.
Proof.
  intros Hp. assert (N1 : nonneg [1]) by (intros y [<-|[]]; lra). pose proof (moments_nn [1] [1] (2 * p) eq_refl N1 N1) as NN. pose proof (momentsOf_len [1] [1] (2 * p)) as L.
  destruct (quad_case N_PAH G_LL O_LL _ p ltac:(tauto) ltac:(auto) ltac:(auto) ltac:(lia) L NN) as (m & s1 & _ & _ & (Q1 & Q2 & Q3 & _) & A & B & _).
  destruct (quad_case N_NONE G_LL O_LL _ p ltac:(tauto) ltac:(auto) ltac:(auto) ltac:(lia) L NN) as (m0 & s2 & _ & _ & (R1 & R2 & R3 & _) & A0 & B0 & _).
  destruct (dry_any (newState (2 * p) 0) (momentsOf [1] [1] (2 * p))) as (s & C & V & EW & EA); [unfold newState; cbn [st_nsoot]; rewrite L; reflexivity|reflexivity|reflexivity|exact NN|].
  assert (LW : length (wts s) = p /\ length (absc s) = p).
  { rewrite EW, EA. unfold newState, zeros. cbn [wts absc]. rewrite !repeat_length. replace (Nat.div (2 * p) 2) with p by (rewrite Nat.mul_comm, Nat.div_mul; lia). auto. }
  exists m, m0, s, dryGas, (mkMechs N_PAH G_LL O_LL C_FM 1).
  split; [|split; [reflexivity|split; [exact dry_none|]]].
  - split; [split; [exact Q1|split; [exact Q2|split; [exact Q3|exact LW]]]|]. do 3 (split; [assumption|]). split; [exact L|intros [K|K]; discriminate].
  - split; [split; [exact R1|split; [exact R2|split; [exact R3|exact LW]]]|]. do 3 (split; [assumption|]). split; [exact L|intros [K|K]; discriminate].
Qed.
Lemma nopah_case_sect : exists (m m0 : model (N:=XR)) s g k n, let b := geometric 100 2 4 in
  isSect m b 2 /\ isSect m0 b 2 /\ goodBins b /\ hasAll m k /\ hasAll m0 (noNucl k) /\ okAll k /\ isP k = true /\ noPah g /\ valid s g n /\ length n = length b /\
  regular k g (number n) (mass b n) /\ located None 2 (/ ln 2) /\ el n 0 = 1 /\
  forall eig, (exists r, setSourceTerms None eig m s = Ok r) /\ (exists r, setSourceTerms None eig m0 s = Ok r).
Proof.
  destruct (sect_built N_PAH G_LL O_LL 2 ltac:(tauto) ltac:(auto) ltac:(auto) ltac:(lra)) as (m & A & B & C).
  destruct (sect_built N_NONE G_LL O_LL 2 ltac:(tauto) ltac:(auto) ltac:(auto) ltac:(lra)) as (m0 & A0 & _ & C0).
  destruct (dry_any (newState 4 0) [1; 0; 1; 0] eq_refl eq_refl eq_refl) as (s & _ & V & _). { intros x [<-|[<-|[<-|[<-|[]]]]]; lra. }
  pose proof (ok_sect N_PAH G_LL O_LL ltac:(tauto) ltac:(auto) ltac:(auto)) as D. pose proof (ok_sect N_NONE G_LL O_LL ltac:(tauto) ltac:(auto) ltac:(auto)) as D0.
  exists m, m0, s, dryGas, (mkMechs N_PAH G_LL O_LL C_FM 1), [1; 0; 1; 0]. cbv zeta.
  assert (RG : forall nm a b, regular (mkMechs nm G_LL O_LL C_FM 1) dryGas a b) by (intros nm a b0 [K|K]; discriminate).
  do 6 (split; [assumption|]). split; [reflexivity|]. split; [exact dry_none|]. split; [exact V|]. split; [reflexivity|]. split; [apply RG|].
  split; [exact (own_located None 2 double2 (or_introl eq_refl))|]. split; [reflexivity|]. intros eig. split.
  - destruct (C31_own_ m s dryGas _ 100 2 4 _ None eig ltac:(lia) double2 sane4 A C D V eq_refl (RG _ _ _) (or_introl eq_refl)) as (m' & s' & st' & E & _). eexists; exact E.
  - destruct (C31_own_ m0 s dryGas _ 100 2 4 _ None eig ltac:(lia) double2 sane4 A0 C0 D0 V eq_refl (RG _ _ _) (or_introl eq_refl)) as (m' & s' & st' & E & _). eexists; exact E.
Qed.
Lemma nopah_case_logn co : co = C_FM \/ co = C_CONTINUUM \/ co = C_HM -> exists (m : model (N:=XR)) s, readyLogn m s dryGas (mkMechs N_PAH G_LL O_LL co 1) 3 4 7.
Proof.
  intros Hc. destruct (logn_case N_PAH co 3 4 7 ltac:(auto) Hc) as (m & _ & _ & _ & A & B & C & D & _); try lra.
  destruct (dry_any (newState 3 0) [3; 4; 7] eq_refl eq_refl eq_refl) as (s & _ & V & _). { intros x [<-|[<-|[<-|[]]]]; lra. }
  exists m, s. do 4 (split; [assumption|]). split; [exact V|]. intros [K|K]; discriminate.
Qed.
Lemma nopah_case_momic co : co = C_FM \/ co = C_CONTINUUM \/ co = C_HM ->
  exists (m : model (N:=XR)) s, readyMomic m s dryGas (mkMechs N_PAH G_LL O_LL co 1) [3; 4; 7; 15] /\ allPos [3; 4; 7; 15].
Proof.
  intros Hc. assert (P : allPos [3; 4; 7; 15]) by (intros x [<-|[<-|[<-|[<-|[]]]]]; lra).
  destruct (momic_case N_PAH co [3; 4; 7; 15] ltac:(auto) Hc) as (m & _ & _ & _ & A & B & C & D & E & _ & _ & L). { cbn; lia. } { intros y Hy. specialize (P y Hy). lra. }
  destruct (dry_any (newState 4 0) [3; 4; 7; 15] eq_refl eq_refl eq_refl) as (s & _ & V & _). { intros x [<-|[<-|[<-|[<-|[]]]]]; lra. }
  exists m, s. split; [|exact P]. do 5 (split; [assumption|]). split; [exact V|]. split; [intros [K|K]; discriminate|exact L].
Qed.
Lemma logn_nopah_any (m : model (N:=XR)) s g k M0 M1 M2 st eig : readyLogn m s g k M0 M1 M2 -> isP k = true -> noPah g ->
  exists m' s', setSourceTerms st eig m s = Ok (st, m', s') /\ soots m' = [Fin (lognC0 k g (mom M0 M1 M2)); NaN; NaN] /\ pahs m' = map (fun _ => Fin 0) allPah.
Proof. intros RD EP HN. destruct (logn_nopah m s g k M0 M1 M2 RD EP st eig HN) as (m' & A & B). eauto. Qed.
